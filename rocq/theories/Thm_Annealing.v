(** Proof of C41. *)
From Coq Require Import Reals Lra Ascii.
From Verif Require Import KeyFacts.
From Verif Require Export RunEq SpecAnnealing.

Section Sd.
  Context {L : lib}.
  Lemma sd_teq {A B} (R : A -> B -> Prop) (t t' : stree L A) u : teq t t' -> same_draws R t' u -> same_draws R t u.
  Proof.
    revert t' u. induction t as [a|d k IH]; intros t' u H H'; inversion H; subst; inversion H'; subst; constructor; auto.
    intros v. eapply IH; [|match goal with H0 : forall v, same_draws R _ _ |- _ => apply H0 end]. auto.
    match goal with H0 : forall v, same_draws eq _ _ |- _ => apply H0 end.
  Qed.
  Lemma sd_bind_l {A A' B} (R : A -> B -> Prop) (Q : A' -> B -> Prop) (t : stree L A) t' f :
    same_draws R t t' -> (forall a b, R a b -> same_draws Q (f a) (Leaf b)) -> same_draws Q (tbind t f) t'.
  Proof. intros H Hf. induction H as [a b H|d k k' H IH]; cbn; [apply Hf, H|]. constructor. exact IH. Qed.
End Sd.

Lemma gname_inj i j : gname i = gname j -> i = j.
Proof. unfold gname. cbn [append]. intros H. injection H as H. apply show_inj, H. Qed.
Lemma gname_neq k : String.eqb (gname k) (gname (S k)) = false.
Proof. apply String.eqb_neq. intros H. apply gname_inj in H. lia. Qed.
Lemma gname_neq' k : String.eqb (gname (S k)) (gname k) = false.
Proof. rewrite String.eqb_sym. apply gname_neq. Qed.

Section Kw.
  Context {L : lib}.
  Notation pyval := (pyval (T L)).
  Implicit Types kws : dict pyval.

  Lemma dget_filter_true {V} (P : string * V -> bool) k (d : dict V) : (forall v, P (k, v) = true) -> dget k (filter P d) = dget k d.
  Proof.
    intros H. induction d as [|[k' v] d IH]; [reflexivity|]. cbn [filter dget].
    destruct (String.eqb_spec k k') as [<-|Hne].
    - rewrite H. cbn [dget]. rewrite String.eqb_refl. reflexivity.
    - destruct (P (k', v)); [cbn [dget]; apply String.eqb_neq in Hne; rewrite Hne|]; exact IH.
  Qed.
  Lemma kwarg_sub k dflt ix kws : ~ In k ["sample_dims"; "batch_dim"; "_debug"; "reparameterized"; "ix"] ->
    kwarg k dflt (sub_kwargs ix kws) = kwarg (L := L) k dflt kws.
  Proof.
    intros H. unfold kwarg, sub_kwargs. cbn [app dget]. cbn [In] in H.
    repeat match goal with |- context [String.eqb k ?x] => let E := fresh in destruct (String.eqb_spec k x) as [E|E]; [exfalso; apply H; subst; tauto|] end.
    rewrite dget_filter_true; [reflexivity|]. intros v. cbn [fst]. apply negb_true_iff, mem_not_In. exact H.
  Qed.
  Lemma k_sd_sub ix kws : k_sd (sub_kwargs ix kws) = k_sd (L := L) kws. Proof. reflexivity. Qed.
  Lemma k_bd_sub ix kws : k_bd (sub_kwargs ix kws) = k_bd (L := L) kws. Proof. reflexivity. Qed.
  Lemma k_rep_sub ix kws : k_rep (sub_kwargs ix kws) = k_rep (L := L) kws. Proof. reflexivity. Qed.
  Lemma k_debug_sub ix kws : k_debug (sub_kwargs ix kws) = k_debug (L := L) kws. Proof. reflexivity. Qed.

  Lemma clash_false l kws : clash (L := L) l kws = false <-> forall k, In k (dkeys kws) -> ~ In k l.
  Proof.
    unfold clash. rewrite <- not_true_iff_false, existsb_exists. split.
    - intros H k Hk Hl. apply in_map_iff in Hk. destruct Hk as ([k' v] & E & Hin). cbn in E. subst k'.
      apply H. exists (k, v). split; [exact Hin|]. apply mem_In, Hl.
    - intros H ([k v] & Hin & Hm). apply mem_In in Hm. apply (H k); [|exact Hm]. apply (in_map fst) in Hin. exact Hin.
  Qed.
  Lemma clash_incl l l' kws : (forall k, In k l -> In k l') -> clash (L := L) l' kws = false -> clash l kws = false.
  Proof. rewrite !clash_false. intros H H' k Hk Hl. exact (H' k Hk (H k Hl)). Qed.
  Lemma dkeys_dset_In {V} k k' (v : V) d : In k (dkeys (dset k' v d)) -> k = k' \/ In k (dkeys d).
  Proof.
    induction d as [|[k0 v0] d IH]; cbn [dset].
    - cbn. intuition.
    - destruct (String.eqb k' k0) eqn:E; cbn [dkeys map fst In]; intros [H|H]; auto. apply IH in H. tauto.
  Qed.
  Lemma dkeys_dmerge_In {V} k (a b : dict V) : In k (dkeys (dmerge a b)) -> In k (dkeys a) \/ In k (dkeys b).
  Proof.
    unfold dmerge. revert a. induction b as [|[k0 v0] b IH]; cbn [fold_left fst snd]; intros a H; [auto|].
    apply IH in H. destruct H as [H|H]; [|right; right; exact H].
    apply dkeys_dset_In in H. destruct H as [->|H]; [right; left; reflexivity|left; exact H].
  Qed.
  Lemma clash_prog sg l kws : (forall k, In k l -> ~ In k ["sample_dims"; "batch_dim"; "reparameterized"]) ->
    clash l kws = false -> clash (L := L) l (prog_kwargs sg kws) = false.
  Proof.
    rewrite !clash_false. intros Hl H k Hk Hin. unfold prog_kwargs in Hk.
    apply in_map_iff in Hk. destruct Hk as ([k' v] & E & Hk). cbn in E. subst k'. apply filter_In in Hk. destruct Hk as [Hk _].
    apply (in_map fst) in Hk. cbn [fst] in Hk. apply dkeys_dmerge_In in Hk. destruct Hk as [Hk|Hk].
    - apply (Hl k Hin). exact Hk.
    - apply in_map_iff in Hk. destruct Hk as ([k' v'] & E & Hk). cbn in E. subst k'. apply filter_In in Hk. destruct Hk as [Hk _].
      apply (H k); [apply (in_map fst) in Hk; exact Hk|exact Hin].
  Qed.
  Definition call_ok kws : Prop := wf_dict kws /\ clash (L := L) ["self"; "c"; "fn"; "trace"] kws = false.
  Lemma call_ok_sub ix kws : call_ok kws -> call_ok (sub_kwargs ix kws).
  Proof.
    intros [H1 H2]. split; [apply wf_sub_kwargs, H1|].
    change ["self"; "c"; "fn"; "trace"] with (["self"] ++ ["c"] ++ ["fn"] ++ ["trace"])%list.
    apply clash_false. intros k Hk Hin. rewrite clash_false in H2.
    unfold sub_kwargs in Hk. rewrite dkeys_app in Hk. apply in_app_or in Hk. destruct Hk as [Hk|Hk].
    - cbn in Hk, Hin. intuition (subst; discriminate).
    - apply in_map_iff in Hk. destruct Hk as ([k' v'] & E & Hk). cbn in E. subst k'. apply filter_In in Hk. destruct Hk as [Hk _].
      apply (H2 k); [apply (in_map fst) in Hk; exact Hk|exact Hin].
  Qed.
  Lemma call_ok_clash kws : call_ok kws -> clash (L := L) ["self"; "c"; "fn"] kws = false.
  Proof. intros [_ H]. eapply clash_incl; [|exact H]. cbn. tauto. Qed.
  Lemma call_ok_prog sg kws : call_ok kws -> firstn 3 (s_args sg) = ["self"; "trace"; "c"] ->
    clash (L := L) ["self"] kws || clash (firstn 3 (s_args sg)) (prog_kwargs sg kws) = false.
  Proof.
    intros [_ H] ->. apply orb_false_intro.
    - eapply clash_incl; [|exact H]. cbn. tauto.
    - apply clash_prog; [cbn; intuition (subst; discriminate)|]. eapply clash_incl; [|exact H]. cbn. tauto.
  Qed.
End Kw.

Section Progs.
  Context {L : lib} (HL : lib_laws L).
  Notation T := (T L). Notation pyval := (pyval T).
  Context (sd bd rep : pyval) (Hlj : forall b pv, lj_ok L rep b pv = true).
  Implicit Types kws : dict pyval.

  Lemma lj_nil (tr : trace L) : log_joint sd bd rep [] tr = Ok (tzero L).
  Proof. unfold log_joint. pose proof (order_perm L HL []) as H. symmetry in H. apply Permutation_nil in H. rewrite H. reflexivity. Qed.
  Lemma lj_one n (tr : trace L) r : dget n tr = Some r ->
    log_joint sd bd rep [n] tr = Ok (tadd L (tzero L) (bsum L sd bd (rv_logp r))).
  Proof.
    intros Hr. unfold log_joint. pose proof (order_perm L HL [n]) as H. apply Permutation_sym, Permutation_length_1_inv in H. rewrite H.
    cbn [log_joint_from]. rewrite Hr, Hlj. reflexivity.
  Qed.
  Lemma lj_two a b (tr : trace L) ra rb : dget a tr = Some ra -> dget b tr = Some rb ->
    log_joint sd bd rep [a; b] tr = Ok (tadd L (tadd L (tzero L) (bsum L sd bd (rv_logp ra))) (bsum L sd bd (rv_logp rb))) \/
    log_joint sd bd rep [a; b] tr = Ok (tadd L (tadd L (tzero L) (bsum L sd bd (rv_logp rb))) (bsum L sd bd (rv_logp ra))).
  Proof.
    intros Ha Hb. unfold log_joint. pose proof (order_perm L HL [a; b]) as H. apply Permutation_sym, Permutation_length_2_inv in H.
    destruct H as [-> | ->]; [left|right]; cbn [log_joint_from]; rewrite Ha, Hb, !Hlj; reflexivity.
  Qed.

  Lemma nodes_none (n : string) : sdiff [n] (sdiff [n] []) = [].
  Proof. unfold sdiff, mem. cbn [filter existsb negb]. rewrite String.eqb_refl. reflexivity. Qed.
  Lemma nodes_in (n : string) l : In n l -> sdiff [n] (sdiff [n] l) = [n].
  Proof. intros H. apply mem_In in H. unfold sdiff at 2. cbn [filter]. rewrite H. reflexivity. Qed.

  Lemma kernel_free oid from to net krep x kws s : call_ok kws -> get_cond oid s = None ->
    k_sd kws = sd -> k_bd kws = bd -> k_rep kws = rep ->
    teq (run (L := L) (kernel_prog oid from to net krep) (VDict [(from, VTensor x)]) kws s)
        (Draw (DrawDist (net x) krep VNone) (fun v =>
          Leaf (Ok (mkOut [(to, mkRV (Proper (net x)) v (logp L (net x) v) SAMPLED krep true)] (tzero L)
                     (VDict [(to, VTensor v)]) TyProgram None None None None []),
                log_call (mkCall oid (VDict [(from, VTensor x)]) (prog_kwargs (mkSig ["self"; "trace"; "c"] [] false) kws) None) s))).
  Proof.
    intros Hk Hc Esd Ebd E. unfold kernel_prog. cbn [run].
    eapply teq_trans; [apply forward_eq; apply call_ok_prog; [exact Hk|reflexivity]|].
    rewrite Hc. cbn [kernel_model dget]. rewrite String.eqb_refl. cbn [exec tbind].
    constructor. intros v. unfold mbind, lift. cbn [add_node dmem dget dset tbind fst snd exec ret after].
    apply teq_eq. unfold after. cbn [fst snd prog_tail].
    cbn [dkeys map fst latent_addrs filter snd is_observed rv_prov prov_eqb negb].
    rewrite nodes_none, Esd, Ebd, E, lj_nil. reflexivity.
  Qed.

  Lemma kernel_cond oid from to net krep x kws s ct r : call_ok kws -> get_cond oid s = Some ct ->
    dget to ct = Some r -> In to (latent_addrs ct) ->
    k_sd kws = sd -> k_bd kws = bd -> k_rep kws = rep ->
    teq (run (L := L) (kernel_prog oid from to net krep) (VDict [(from, VTensor x)]) kws s)
        (Leaf (Ok (mkOut [(to, mkRV (Proper (net x)) (rv_value r) (logp L (net x) (rv_value r)) REUSED krep true)]
                     (tadd L (tzero L) (bsum L sd bd (logp L (net x) (rv_value r))))
                     (VDict [(to, VTensor (rv_value r))]) TyProgram None None None None []),
                log_call (mkCall oid (VDict [(from, VTensor x)]) (prog_kwargs (mkSig ["self"; "trace"; "c"] [] false) kws) (Some ct)) s)).
  Proof.
    intros Hk Hc Hr Hin Esd Ebd E. unfold kernel_prog. cbn [run].
    eapply teq_trans; [apply forward_eq; apply call_ok_prog; [exact Hk|reflexivity]|].
    rewrite Hc. cbn [kernel_model dget]. rewrite String.eqb_refl. cbn [exec tbind]. rewrite Hr.
    unfold mbind, lift. cbn [add_node dmem dget dset tbind fst snd exec ret after].
    apply teq_eq. unfold after. cbn [fst snd prog_tail].
    cbn [dkeys map fst latent_addrs filter snd is_observed rv_prov prov_eqb negb].
    rewrite nodes_in by exact Hin. rewrite Esd, Ebd, E.
    erewrite lj_one; [|cbn [dget]; rewrite String.eqb_refl; reflexivity]. reflexivity.
  Qed.

  (** the node a target adds when its address is conditioned to [v] *)
  Definition tnode (t : target L) (v : T) : rv L :=
    match t with
    | TDist d trep => mkRV (Proper d) v (logp L d v) REUSED trep true
    | TDens f => mkRV (Improper f) v (f v) REUSED true true
    end.
  Definition tsig (t : target L) : sig :=
    match t with
    | TDist _ _ => mkSig ["self"; "trace"; "c"; "sample_shape"] [] false
    | TDens _ => mkSig ["self"; "trace"; "c"] [] false
    end.
  Lemma tnode_logp t v : rv_logp (tnode t v) = target_logp t v. Proof. destruct t; reflexivity. Qed.
  Lemma tnode_value t v : rv_value (tnode t v) = v. Proof. destruct t; reflexivity. Qed.
  Lemma tnode_prov t v : rv_prov (tnode t v) = REUSED. Proof. destruct t; reflexivity. Qed.
  Lemma tnode_rerun t v : rerun_rv (tnode t v) = Ok (tnode t (detach L v)).
  Proof. destruct t; reflexivity. Qed.

  Lemma target_cond oid n t c kws s ct r : call_ok kws -> get_cond oid s = Some ct ->
    dget n ct = Some r -> In n (latent_addrs ct) ->
    k_sd kws = sd -> k_bd kws = bd -> k_rep kws = rep ->
    teq (run (L := L) (target_prog oid n t) c kws s)
        (Leaf (Ok (mkOut [(n, tnode t (rv_value r))]
                     (tadd L (tzero L) (bsum L sd bd (target_logp t (rv_value r))))
                     (VDict [(n, VTensor (rv_value r))]) TyProgram None None None None []),
                log_call (mkCall oid c (prog_kwargs (tsig t) kws) (Some ct)) s)).
  Proof.
    intros Hk Hc Hr Hin Esd Ebd E. destruct t as [d trep|f]; unfold target_prog, distribution_prog, density_prog; cbn [run].
    - eapply teq_trans; [apply forward_eq; apply call_ok_prog; [exact Hk|reflexivity]|].
      rewrite Hc. unfold distribution_model, maybe_sample. cbn [exec]. rewrite Hr.
      cbn [exec dset ret tbind]. apply teq_eq. unfold after. cbn [fst snd prog_tail].
      cbn [dkeys map fst latent_addrs filter snd is_observed rv_prov prov_eqb negb].
      rewrite nodes_in by exact Hin. rewrite Esd, Ebd, E.
      erewrite lj_one; [|cbn [dget]; rewrite String.eqb_refl; reflexivity]. reflexivity.
    - eapply teq_trans; [apply forward_eq; apply call_ok_prog; [exact Hk|reflexivity]|].
      rewrite Hc. unfold density_model. cbn [exec]. rewrite Hr.
      cbn [exec dset ret tbind]. apply teq_eq. unfold after. cbn [fst snd prog_tail].
      cbn [dkeys map fst latent_addrs filter snd is_observed rv_prov prov_eqb negb].
      rewrite nodes_in by exact Hin. rewrite Esd, Ebd, E.
      erewrite lj_one; [|cbn [dget]; rewrite String.eqb_refl; reflexivity]. reflexivity.
  Qed.

  Lemma kwarg_prog k dflt sg kws : wf_dict kws -> check_passable_kwarg k sg = true ->
    ~ In k ["sample_dims"; "batch_dim"; "reparameterized"] ->
    kwarg k dflt (prog_kwargs sg kws) = kwarg (L := L) k dflt kws.
  Proof.
    intros Hwf Hp Hn. unfold kwarg, prog_kwargs. rewrite dget_filter_true by (intros v; exact Hp).
    rewrite dget_dmerge.
    - rewrite dget_filter_true by (intros v; cbn [fst]; apply negb_true_iff, mem_not_In; exact Hn).
      destruct (dget k kws); [reflexivity|]. cbn [dget]. cbn [In] in Hn.
      repeat match goal with |- context [String.eqb k ?x] => let E := fresh in destruct (String.eqb_spec k x) as [E|E]; [exfalso; apply Hn; subst; tauto|] end.
      reflexivity.
    - unfold wf_dict, dkeys. induction kws as [|[k0 v0] d IH]; cbn [filter]; [constructor|].
      inversion Hwf as [|? ? Hni Hb']; subst.
      destruct (negb _); cbn [map]; [|exact (IH Hb')]. constructor; [|exact (IH Hb')].
      intros Hin. apply Hni. apply in_map_iff in Hin. destruct Hin as (x & E & Hx). apply filter_In in Hx.
      apply in_map_iff. exists x. tauto.
  Qed.

  Lemma init_free oid n d drep c kws s : call_ok kws -> get_cond oid s = None ->
    k_sd kws = sd -> k_bd kws = bd -> k_rep kws = rep ->
    teq (run (L := L) (distribution_prog oid n d drep) c kws s)
        (Draw (DrawDist d drep (kwarg "sample_shape" (VTup [VInt 1; VInt 1]) kws)) (fun v =>
          Leaf (Ok (mkOut [(n, mkRV (Proper d) v (logp L d v) SAMPLED drep true)] (tzero L)
                     (VDict [(n, VTensor v)]) TyProgram None None None None []),
                log_call (mkCall oid c (prog_kwargs (mkSig ["self"; "trace"; "c"; "sample_shape"] [] false) kws) None) s))).
  Proof.
    intros Hk Hc Esd Ebd E. unfold distribution_prog. cbn [run].
    eapply teq_trans; [apply forward_eq; apply call_ok_prog; [exact Hk|reflexivity]|].
    rewrite Hc. unfold distribution_model, maybe_sample. cbn [exec tbind].
    rewrite kwarg_prog; [|apply Hk|reflexivity|cbn; intuition discriminate].
    constructor. intros v. cbn [dset ret tbind]. apply teq_eq. unfold after. cbn [fst snd prog_tail].
    cbn [dkeys map fst latent_addrs filter snd is_observed rv_prov prov_eqb negb].
    rewrite nodes_none, Esd, Ebd, E, lj_nil. reflexivity.
  Qed.
End Progs.

Section Step.
  Context {L : lib} (HL : lib_laws L).
  Notation T := (T L). Notation pyval := (pyval T).
  Context (sd bd rep : pyval) (Hlj : forall b pv, lj_ok L rep b pv = true).
  Implicit Types kws : dict pyval.
  Definition shaped kws : Prop := call_ok kws /\ k_sd kws = sd /\ k_bd kws = bd /\ k_rep kws = rep.
  Lemma shaped_sub ix kws : shaped kws -> shaped (sub_kwargs ix kws).
  Proof. intros (H1 & H2 & H3 & H4). repeat split; try assumption; apply (call_ok_sub ix kws H1). Qed.

  Context (a b : string) (Hab : String.eqb a b = false).
  Let Hba : String.eqb b a = false. Proof. rewrite String.eqb_sym. exact Hab. Qed.

  Lemma two_wf (x y : rv L) : wf_dict [(b, x); (a, y)].
  Proof.
    constructor; [|constructor; [cbn; tauto|constructor]]. cbn. intros [E|[]]. subst. rewrite String.eqb_refl in Hab. discriminate.
  Qed.
  Lemma one_wf n (x : rv L) : wf_dict [(n, x)].
  Proof. constructor; [cbn; tauto|constructor]. Qed.
  Lemma copy_two mode (x y : rv L) : copytraces no_excl mode [[(b, x)]; [(a, y)]] = Ok [(b, x); (a, y)].
  Proof.
    unfold copytraces. cbn [copy_all copy_items rbind]. unfold copy_item. cbn [no_excl dmem dget dset rbind].
    rewrite Hab. cbn [rbind]. unfold dmem. cbn [dget]. rewrite Hab. reflexivity.
  Qed.
  Lemma latent_two (x y : rv L) : rv_prov x <> OBSERVED -> rv_prov y <> OBSERVED -> latent_addrs [(b, x); (a, y)] = [b; a].
  Proof.
    intros Hx Hy. unfold latent_addrs, is_observed. cbn [filter snd].
    destruct (rv_prov x); try congruence; destruct (rv_prov y); try congruence; reflexivity.
  Qed.

  Lemma extend_step id ot or_ t net rrep o c kws s rb ra :
    shaped kws -> wf_st s -> get_cond id s = Some [(b, rb); (a, ra)] ->
    rv_prov rb <> OBSERVED -> rv_prov ra <> OBSERVED -> id <> ot -> id <> or_ -> ot <> or_ ->
    in_loss o = default_loss ->
    exists po s', teq (run (L := L) (IExtend id (target_prog ot b t) (kernel_prog or_ b a net rrep) o) c kws s) (Leaf (Ok po, s')) /\
      out_trace po = [(b, tnode t (rv_value rb));
                      (a, mkRV (Proper (net (rv_value rb))) (rv_value ra) (logp L (net (rv_value rb)) (rv_value ra)) REUSED rrep true)] /\
      out_lw po = tadd L (tadd L (tzero L) (bsum L sd bd (target_logp t (rv_value rb))))
                         (tadd L (tzero L) (bsum L sd bd (logp L (net (rv_value rb)) (rv_value ra)))) /\
      out_marginal po = Some ([b], VDict [(b, VTensor (rv_value rb))]) /\
      (forall j, get_cond j s' = None \/ get_cond j s' = get_cond j s).
  Proof.
    intros Hk Hs Hc Hpb Hpa Hio Hir Hor Hlo. set (ct := [(b, rb); (a, ra)]) in *.
    pose proof (shaped_sub (in_ix o) kws Hk) as (Hk1 & Hk2 & Hk3 & Hk4). destruct Hk as (K1 & K2 & K3 & K4).
    assert (Hlat : latent_addrs ct = [b; a]) by (apply latent_two; assumption).
    assert (oid_t : oid_of (target_prog ot b t) = ot) by (destruct t; reflexivity).
    set (s1 := set_cond or_ (Some ct) (set_cond ot (Some ct) s)).
    assert (Hc1 : get_cond ot s1 = Some ct).
    { unfold s1. rewrite get_set_other, get_set_same by congruence. reflexivity. }
    pose proof (target_cond HL sd bd rep Hlj ot b t c (sub_kwargs (in_ix o) kws) s1 ct rb Hk1 Hc1) as Ht.
    specialize (Ht ltac:(unfold ct; cbn [dget]; rewrite String.eqb_refl; reflexivity)
                   ltac:(rewrite Hlat; left; reflexivity) Hk2 Hk3 Hk4).
    match type of Ht with teq _ (Leaf (_, ?x)) => set (s2 := x) in * end.
    assert (Hc2 : get_cond or_ s2 = Some ct).
    { unfold s2, log_call, get_cond. cbn [conds]. fold (get_cond or_ s1). unfold s1. rewrite get_set_same. reflexivity. }
    pose proof (kernel_cond HL sd bd rep Hlj or_ b a net rrep (rv_value rb) (sub_kwargs (in_ix o) kws) s2 ct ra Hk1 Hc2) as Hr.
    specialize (Hr ltac:(unfold ct; cbn [dget]; rewrite Hab, String.eqb_refl; reflexivity)
                   ltac:(rewrite Hlat; right; left; reflexivity) Hk2 Hk3 Hk4).
    match type of Hr with teq _ (Leaf (_, ?x)) => set (s3 := x) in * end.
    set (s4 := set_cond ot None (set_cond or_ None s3)).
    assert (Hc4 : get_cond id s4 = Some ct).
    { unfold s4. rewrite !get_set_other by congruence. unfold s3, s2, log_call, get_cond. cbn [conds]. fold (get_cond id s1).
      unfold s1. rewrite !get_set_other by congruence. exact Hc. }
    eexists. exists s4. split.
    - eapply teq_trans; [apply run_extend_eq; [apply K1|exact Hs|apply call_ok_clash, K1]|].
      cbn zeta. rewrite Hc, oid_t. change (oid_of (kernel_prog or_ b a net rrep)) with or_. fold s1.
      eapply teq_trans; [apply teq_tbind; [exact Ht|intros x; apply teq_refl]|]. cbn [tbind fst snd out_output].
      eapply teq_trans; [apply teq_tbind; [exact Hr|intros x; apply teq_refl]|]. cbn [tbind fst snd].
      fold s4. rewrite Hc4. apply teq_eq. unfold extend_tail. cbn [out_trace out_lw out_output forallb snd is_observed rv_prov prov_eqb negb andb rbind].
      unfold sinter, mem. cbn [dkeys map fst filter existsb]. rewrite Hab. cbn [orb].
      cbn [latent_addrs filter snd is_observed rv_prov prov_eqb negb map fst].
      rewrite K2, K3, K4. erewrite lj_one; [|exact HL|exact Hlj|cbn [dget]; rewrite String.eqb_refl; reflexivity].
      cbn [rbind rv_logp]. rewrite copy_two. cbn [rbind]. unfold add_loss. rewrite Hlo. cbn [default_loss rmap rbind]. reflexivity.
    - unfold add_subs. destruct (truthy _ || _); cbn [with_loss out_trace out_lw out_marginal].
      + do 3 (split; [reflexivity|]). intros j.
        destruct (Nat.eq_dec j ot) as [->|N1]; [left; unfold s4; apply get_set_same|].
        destruct (Nat.eq_dec j or_) as [->|N2]; [left; unfold s4; rewrite get_set_other, get_set_same by congruence; reflexivity|].
        right. unfold s4. rewrite !get_set_other by congruence. unfold s3, s2, log_call, get_cond. cbn [conds]. fold (get_cond j s1).
        unfold s1. rewrite !get_set_other by congruence. reflexivity.
      + do 3 (split; [reflexivity|]). intros j.
        destruct (Nat.eq_dec j ot) as [->|N1]; [left; unfold s4; apply get_set_same|].
        destruct (Nat.eq_dec j or_) as [->|N2]; [left; unfold s4; rewrite get_set_other, get_set_same by congruence; reflexivity|].
        right. unfold s4. rewrite !get_set_other by congruence. unfold s3, s2, log_call, get_cond. cbn [conds]. fold (get_cond j s1).
        unfold s1. rewrite !get_set_other by congruence. reflexivity.
  Qed.

  (** the result of the program before the step: one node at [a] *)
  Definition one_node (x : res (out L) * st L) (r : rv L) (w v : T) : Prop :=
    exists o s', x = (Ok o, s') /\ clean s' /\ out_trace o = [(a, r)] /\ rv_value r = v /\ rv_prov r <> OBSERVED /\
      out_output o = VDict [(a, VTensor v)] /\ out_lw o = w.

  Lemma compose_step {B} id of_ net frep o q c kws s (t : stree L B) (R : B -> rv L -> T -> T -> Prop) (E : res (out L) -> B -> Prop) :
    shaped kws -> in_loss o = default_loss -> in_debug o = true ->
    same_draws (fun x z => exists r w v, R z r w v /\ one_node x r w v /\ E (fst x) z) (run q c (sub_kwargs (in_ix o) kws) s) t ->
    forall (t' : B -> T -> B) (vof : B -> T), (forall z r w v, R z r w v -> v = vof z) ->
    same_draws (fun x zz => exists z v', zz = t' z v' /\
        exists r w v o s', R z r w v /\ rv_value r = v /\ rv_prov r <> OBSERVED /\
          x = (Ok o, s') /\ clean s' /\
          out_trace o = [(b, mkRV (Proper (net v)) v' (logp L (net v) v') SAMPLED frep true); (a, r)] /\
          out_lw o = tadd L w (tzero L) /\ out_type o = TyCompose /\
          (exists o2, get_sub "q2_out" o = Some o2) /\ (exists o1, get_sub "q1_out" o = Some o1 /\ E (Ok o1) z))
      (run (L := L) (ICompose id (kernel_prog of_ a b net frep) q o) c kws s)
      (tbind t (fun z => Draw (DrawDist (net (vof z)) frep VNone) (fun v' => Leaf (t' z v')))).
  Proof.
    intros Hk Hlo Hdb Hq t' vof Hvof. pose proof (shaped_sub (in_ix o) kws Hk) as (Hk1 & Hk2 & Hk3 & Hk4). destruct Hk as (K1 & K2 & K3 & K4).
    eapply sd_teq; [apply run_compose_eq; [apply K1|apply call_ok_clash, K1]|].
    eapply sd_bind; [exact Hq|]. intros x z (r & w & v & HR & (o1 & s1 & -> & Hcl & Ht1 & Hv1 & Hp1 & Ho1 & Hw1) & HE). cbn [fst] in HE.
    unfold after at 1. cbn [fst snd]. rewrite Ho1. pose proof (Hvof _ _ _ _ HR) as Ev. rewrite <- Ev.
    eapply sd_teq; [apply teq_tbind; [|intros y; apply teq_refl];
      apply (kernel_free HL sd bd rep of_ a b net frep v (sub_kwargs (in_ix o) kws) s1 Hk1 (Hcl of_) Hk2 Hk3 Hk4)|].
    cbn [tbind]. constructor. intros v'. unfold after. cbn [fst snd]. constructor.
    exists z, v'. split; [reflexivity|]. exists r, w, v.
    unfold compose_tail. cbn [out_trace]. rewrite Ht1, copy_two. cbn [rbind].
    unfold sinter, mem. cbn [dkeys map fst filter existsb]. rewrite Hba. cbn [orb].
    unfold add_loss. rewrite Hlo, Hdb. cbn [default_loss rmap rbind]. rewrite orb_true_r.
    eexists. eexists. split; [exact HR|]. split; [exact Hv1|]. split; [exact Hp1|]. split; [reflexivity|].
    split; [exact Hcl|]. cbn [add_subs with_loss out_trace out_lw out_type out_subs app].
    split; [reflexivity|]. split; [rewrite Hw1; reflexivity|]. split; [reflexivity|].
    split; [eexists; reflexivity|]. exists o1. split; [reflexivity|exact HE].
  Qed.
End Step.

(** reading a numeral back *)
Definition dval (c : Ascii.ascii) : nat := Ascii.nat_of_ascii c - 48.
Fixpoint sval (s : string) (acc : nat) : nat :=
  match s with EmptyString => acc | String c s' => sval s' (10 * acc + dval c) end.
Lemma sval_app x y acc : sval (x ++ y)%string acc = sval y (sval x acc).
Proof. revert acc. induction x; cbn [append sval]; auto. Qed.
Lemma sval_ge y acc : acc <= sval y acc.
Proof. revert acc. induction y as [|c y IH]; intros acc; cbn [sval]; [lia|]. specialize (IH (10 * acc + dval c)). lia. Qed.
Lemma sval_uint d acc : sval (DecimalString.NilEmpty.string_of_uint d) acc = Nat.of_uint_acc d acc.
Proof.
  revert acc. induction d; intros acc; cbn [DecimalString.NilEmpty.string_of_uint sval Nat.of_uint_acc]; [reflexivity|..];
    rewrite IHd, Nat.tail_mul_spec; f_equal; change (dval _) with 0 || change (dval _) with 1 || change (dval _) with 2 || change (dval _) with 3 || change (dval _) with 4
     || change (dval _) with 5 || change (dval _) with 6 || change (dval _) with 7 || change (dval _) with 8 || change (dval _) with 9; lia.
Qed.
Lemma sval_show n : sval (show n) 0 = n.
Proof.
  assert (E : show n = DecimalString.NilEmpty.string_of_uint (Nat.to_uint n)).
  { unfold show, DecimalString.NilZero.string_of_uint. destruct (Nat.to_uint n) eqn:E; try reflexivity.
    exfalso. pose proof (DecimalNat.Unsigned.of_to n) as H0. rewrite E in H0. cbn in H0. subst n. discriminate. }
  rewrite E, sval_uint. change (Nat.of_uint (Nat.to_uint n) = n). apply DecimalNat.Unsigned.of_to.
Qed.

Lemma starts_app a b : starts a b = true <-> exists c, b = (a ++ c)%string.
Proof.
  revert b. induction a as [|x a IH]; intros b; cbn [starts].
  - split; [intros _; exists b; reflexivity|reflexivity].
  - destruct b as [|y b].
    + split; [discriminate|]. intros (c & E). discriminate.
    + rewrite andb_true_iff, Ascii.eqb_eq, IH. split.
      * intros (-> & c & ->). exists c. reflexivity.
      * intros (c & E). cbn [append] in E. injection E as -> ->. split; [reflexivity|exists c; reflexivity].
Qed.
Lemma substr_app a b : substr a b = true <-> exists p c, b = (p ++ a ++ c)%string.
Proof.
  induction b as [|y b IH]; cbn [substr]; rewrite orb_true_iff, starts_app.
  - split.
    + intros [(c & E)|H]; [exists "", c; exact E|discriminate].
    + intros (p & c & E). destruct p; [left; exists c; exact E|discriminate].
  - rewrite IH. split.
    + intros [(c & E)|(p & c & ->)]; [exists "", c; exact E|exists (String y p), c; reflexivity].
    + intros (p & c & E). destruct p as [|y' p]; [left; exists c; exact E|right].
      cbn [append] in E. injection E as _ E. exists p, c. exact E.
Qed.
Lemma append_nil_r x : (x ++ "")%string = x.
Proof. induction x; cbn; congruence. Qed.
Lemma show_prefix j k c : show k = (show j ++ c)%string -> j = k \/ 10 * j <= k.
Proof.
  intros E. destruct c as [|x c]; [left; rewrite append_nil_r in E; apply show_inj in E; congruence|right].
  assert (E2 : sval (show k) 0 = k) by apply sval_show. rewrite E, sval_app, sval_show in E2. cbn [sval] in E2.
  pose proof (sval_ge c (10 * j + dval x)) as H. lia.
Qed.
Lemma substr_gname i j : substr (gname i) (gname j) = true -> i = j \/ 10 * i <= j.
Proof.
  intros H. apply substr_app in H. destruct H as (p & c & E). unfold gname in E. cbn [append] in E.
  destruct p as [|y p].
  - cbn [append] in E. injection E as E. apply (show_prefix i j c). exact E.
  - cbn [append] in E. injection E as _ E. exfalso.
    assert (H : has_char "g"%char (show j) = true).
    { rewrite E, has_char_app. cbn [has_char]. rewrite Ascii.eqb_refl. apply orb_true_r. }
    apply show_digits in H. discriminate.
Qed.
Lemma substr_gname_S k : substr (gname k) (gname (S k)) = false.
Proof.
  destruct (substr _ _) eqn:E; [|reflexivity]. destruct k as [|k]; [vm_compute in E; discriminate|]. apply substr_gname in E. lia.
Qed.
Lemma gname_z_nat k : gname_z (Z.of_nat k + 1) = gname (S k).
Proof.
  unfold gname_z. destruct (Z.ltb_spec (Z.of_nat k + 1) 0); [lia|]. f_equal. lia.
Qed.

Section Vsmc.
  Context {L : lib} (HL : lib_laws L).
  Notation T := (T L). Notation pyval := (pyval T).
  Context (sd bd rep : pyval) (Hlj : forall b pv, lj_ok L rep b pv = true).
  Context (val : T -> R) (pb : problem L) (HR : reads val sd bd pb).
  Context (dd : D L -> D L)
    (Hdd1 : forall d v, tensor_equal L (logp L d v) (logp L (dd d) v) = true)
    (Hdd2 : forall d v, val (bsum L sd bd (logp L (dd d) v)) = val (bsum L sd bd (logp L d v))).
  Implicit Types kws : dict pyval.

  Lemma stl_two k rb ra kws d : rv_den rb = Proper d -> rv_logp rb = logp L d (rv_value rb) ->
    apply_transf (Some (stl_transf dd)) [(gname (S k), rb); (gname k, ra)] (firstn 5 (sub_kwargs (VInt (Z.of_nat k)) kws))
    = Ok [(gname k, ra); (gname (S k), mkRV (Proper (dd d)) (rv_value rb) (logp L (dd d) (rv_value rb)) SAMPLED true true)].
  Proof.
    intros Hd Hl. unfold apply_transf.
    change (dispatch_kwargs _ _) with [("ix", VInt (T := T) (Z.of_nat k))].
    unfold stl_transf, tf_call. change (kwarg "ix" VNone _) with (VInt (T := T) (Z.of_nat k)). cbn match.
    unfold stl_trace. rewrite gname_z_nat.
    unfold copytraces. cbn [copy_all copy_items]. unfold copy_item. rewrite substr_gname_S.
    assert (Hs : substr (gname (S k)) (gname (S k)) = true).
    { apply substr_app. exists "", "". cbn. rewrite append_nil_r. reflexivity. }
    rewrite Hs. cbn [rbind dmem dget dset]. rewrite String.eqb_refl.
    unfold eval_detached. rewrite Hd. cbn [rv_logp]. rewrite Hl, Hdd1. cbn [rbind rmap dset]. rewrite gname_neq'.
    unfold as_trace, dmerge. cbn [fold_left fst snd dset]. rewrite gname_neq'. reflexivity.
  Qed.

  (** what is known after [k] steps *)
  Definition weights (k : nat) (zs : list T) (r : rv L) (w v : T) : Prop :=
    length zs = S k /\ v = carried zs k /\ val w = ais_weight val sd bd pb k zs /\
    val (bsum L sd bd (rv_logp r)) =
      val (bsum L sd bd (match k with O => logp L (pb_d0 pb) (pt zs 0) | S _ => target_logp (pb_target pb k) (pt zs k) end)).
  (** the results of the steps so far, found along the spine of debug results: the step that
      proposed [z_(t+1)] and its cumulative weight *)
  Definition step_reports (zs : list T) (t : nat) (x : out L) : Prop :=
    (exists px r, out_px x = Some px /\ dget (gname (S t)) (px_proposal_trace px) = Some r /\ rv_value r = pt zs (S t)) /\
    val (out_lw x) = ais_weight val sd bd pb (S t) (firstn (S (S t)) zs).
  Definition reports (k : nat) (x : res (out L)) (zs : list T) : Prop :=
    exists o outs, x = Ok o /\ length outs = k /\ spine o outs /\ forall t y, nth_error outs t = Some y -> step_reports zs t y.
  Definition good (k : nat) (x : res (out L) * st L) (zs : list T) : Prop :=
    exists r w v, weights k zs r w v /\ one_node (gname k) x r w v /\ reports k (fst x) zs.

  Lemma pt_app (zs : list T) v k : length zs = S k -> pt (zs ++ [v]) (S k) = v.
  Proof. intros H. unfold pt. rewrite app_nth2, H, Nat.sub_diag by lia. reflexivity. Qed.
  Lemma pt_app_lt (zs : list T) v i : i < length zs -> pt (zs ++ [v]) i = pt zs i.
  Proof. intros H. unfold pt. apply app_nth1. exact H. Qed.
  Lemma sum_below_ext n f g : (forall i, i < n -> f i = g i) -> sum_below n f = sum_below n g.
  Proof. induction n; cbn [sum_below]; intros H; [reflexivity|]. rewrite IHn, H by (intros; auto; lia). reflexivity. Qed.

  Lemma carried_fwd zs i x : val (bsum L sd bd (logp L (pb_fwd pb i (carried zs i)) x)) = val (bsum L sd bd (logp L (pb_fwd pb i (pt zs i)) x)).
  Proof. destruct i; [reflexivity|]. apply (rd_fwd val sd bd pb HR). Qed.
  Lemma carried_logp zs i d : val (bsum L sd bd (logp L d (carried zs i))) = val (bsum L sd bd (logp L d (pt zs i))).
  Proof. destruct i; [reflexivity|]. apply (rd_logp val sd bd pb HR). Qed.

  Lemma vsmc_propose_step loss_fn avo resample rs base n k of_ or_ ot q c kws s :
    (forall o px, out_px o = Some px -> exists l, loss_fn o = Ok l) ->
    resample = false -> ot < base -> or_ < base -> ot <> or_ ->
    shaped sd bd rep kws -> clean s ->
    same_draws (good k) (run q c (sub_kwargs VNone (sub_kwargs (VInt (Z.of_nat k)) kws)) s) (chain pb (kwarg "sample_shape" (VTup [VInt 1; VInt 1]) kws) k) ->
    same_draws (good (S k))
      (run (vsmc_step dd loss_fn avo resample rs base n k
              (kernel_prog of_ (gname k) (gname (S k)) (pb_fwd pb k) (pb_fwd_rep pb k))
              (kernel_prog or_ (gname (S k)) (gname k) (pb_rev pb k) (pb_rev_rep pb k))
              (target_prog ot (gname (S k)) (pb_target pb (S k))) q) c kws s)
      (chain pb (kwarg "sample_shape" (VTup [VInt 1; VInt 1]) kws) (S k)).
  Proof.
    intros Hloss -> Hot Hor Hne Hk Hcl Hq. unfold vsmc_step. cbn [andb].
    set (id := base + 4 * k). set (ix := VInt (T := T) (Z.of_nat k)).
    pose proof (shaped_sub sd bd rep ix kws Hk) as Hk'. pose proof Hk as (K1 & K2 & K3 & K4).
    eapply sd_teq; [apply run_propose_eq; [apply K1|intros i t E; rewrite Hcl in E; discriminate|apply call_ok_clash, K1|reflexivity]|].
    cbn [in_ix]. fold ix.
    eapply sd_bind_l.
    { cbn [chain].
      eapply (compose_step HL sd bd rep (gname k) (gname (S k)) (gname_neq k) (id + 1) of_ (pb_fwd pb k) (pb_fwd_rep pb k)
                (mkOpts default_loss None VNone true) q c (sub_kwargs ix kws) s _ (weights k) (reports k) Hk' eq_refl eq_refl Hq (fun zs v => zs ++ [v]) (fun zs => carried zs k)).
      intros z r w v (_ & H & _). exact H. }
    intros x zz (zs & v' & -> & r & w & v & qo & s1 & (Hlen & Hv & Hw & Hlp) & Hrv & Hrp & -> & Hcl1 & Htr & Hlw & Hty & (o2 & Hq2) & (o1 & Hq1 & o1' & outs & Eo1 & Hlo & Hsp & Hrep)). injection Eo1 as <-.
    unfold after at 1. cbn [fst snd].
    set (rb := mkRV (Proper (pb_fwd pb k v)) v' (logp L (pb_fwd pb k v) v') SAMPLED (pb_fwd_rep pb k) true) in *.
    rewrite with_eq.
    2:{ intros tr E. injection E as <-. rewrite Htr. apply two_wf, gname_neq. }
    cbn [oid_of].
    destruct (extend_step HL sd bd rep Hlj (gname k) (gname (S k)) (gname_neq k) id ot or_ (pb_target pb (S k)) (pb_rev pb k) (pb_rev_rep pb k)
      (mkOpts default_loss None VNone false) c (sub_kwargs ix kws) (set_cond id (Some (out_trace qo)) s1) rb r) as (po & s2 & Hp & Hpt & Hplw & Hpm & Hps).
    { exact Hk'. }
    { apply wf_set_cond; [|intros t E; injection E as <-; rewrite Htr; apply two_wf, gname_neq].
      intros i t E. rewrite Hcl1 in E. discriminate. }
    { rewrite get_set_same, Htr. reflexivity. }
    { discriminate. } { exact Hrp. } { unfold id. lia. } { unfold id. lia. } { exact Hne. } { reflexivity. }
    eapply sd_teq.
    { eapply teq_trans; [apply teq_assoc|]. cbn [tbind].
      apply teq_tbind; [exact Hp|]. intros y. apply teq_refl. }
    cbn [tbind fst snd]. unfold after. cbn [fst snd].
    constructor.
    (* the pure tail *)
    assert (Hlat : latent_addrs (out_trace qo) = [gname (S k); gname k]).
    { rewrite Htr. apply latent_two; [discriminate|exact Hrp]. }
    assert (Hlat2 : latent_addrs (out_trace po) = [gname (S k); gname k]).
    { rewrite Hpt. apply latent_two; [rewrite tnode_prov; discriminate|discriminate]. }
    assert (Hnodes : sdiff (dkeys (out_trace qo)) (sdiff (latent_addrs (out_trace qo)) (latent_addrs (out_trace po))) = [gname (S k); gname k]).
    { rewrite Hlat, Hlat2, Htr. cbn [dkeys map fst]. unfold sdiff, mem. cbn [filter existsb]. rewrite !String.eqb_refl, gname_neq.
      reflexivity. }
    assert (Htf : exists tr' rb', apply_transf (if avo then None else Some (stl_transf dd)) (out_trace qo) (firstn 5 (sub_kwargs ix kws)) = Ok tr' /\
       dget (gname (S k)) tr' = Some rb' /\ dget (gname k) tr' = Some r /\ val (bsum L sd bd (rv_logp rb')) = val (bsum L sd bd (rv_logp rb))).
    { rewrite Htr. destruct avo.
      - exists [(gname (S k), rb); (gname k, r)], rb. cbn [apply_transf dget]. rewrite !String.eqb_refl, gname_neq. auto.
      - unfold ix. rewrite (stl_two k rb r kws (pb_fwd pb k v) eq_refl eq_refl). eexists. eexists. split; [reflexivity|].
        cbn [dget]. rewrite !String.eqb_refl, gname_neq'. split; [reflexivity|]. split; [reflexivity|]. cbn [rv_logp rb]. apply Hdd2. }
    destruct Htf as (tr' & rb' & Etf & Hb' & Ha' & Hvb').
    unfold propose_tail. cbn [in_ix in_loss in_loss0 in_debug]. fold ix. rewrite Hnodes, Etf. cbn [rbind]. rewrite K2, K3, K4.
    assert (Hlj2 : exists lu, log_joint sd bd rep [gname (S k); gname k] tr' = Ok lu /\ val lu = (val (bsum L sd bd (rv_logp rb)) + val (bsum L sd bd (rv_logp r)))%R).
    { destruct (lj_two HL sd bd rep Hlj _ _ tr' rb' r Hb' Ha') as [E|E]; rewrite E; eexists; (split; [reflexivity|]);
        rewrite !(rd_add val sd bd pb HR), (rd_zero val sd bd pb HR), Hvb'; lra. }
    destruct Hlj2 as (lu & Elu & Hlu). rewrite Elu. cbn [rbind].
    unfold marginalize. cbn [is_extend]. rewrite Hpm.
    assert (Hdrop : sdiff (dkeys (out_trace po)) [gname (S k)] = [gname k]).
    { rewrite Hpt. cbn [dkeys map fst]. unfold sdiff, mem. cbn [filter existsb]. rewrite String.eqb_refl, gname_neq. reflexivity. }
    rewrite Hdrop. rewrite copytraces_filter by (rewrite Hpt; apply two_wf, gname_neq).
    assert (Hflt : filter (keep L (fun k0 => mem k0 [gname k])) (out_trace po) = [(gname (S k), tnode (pb_target pb (S k)) (rv_value rb))]).
    { rewrite Hpt. unfold keep, mem. cbn [filter fst existsb]. rewrite String.eqb_refl, gname_neq'. reflexivity. }
    rewrite Hflt. cbn [rmap rbind fst snd].
    unfold rerun_with_detached_values. cbn [rerun_items]. rewrite tnode_rerun. cbn [rbind rerun_items dset].
    assert (Hten : is_tensor L (tadd L (out_lw qo) (tsub L (out_lw po) lu)) = true).
    { rewrite (rd_tensor_add val sd bd pb HR), (rd_tensor_sub val sd bd pb HR), Hplw, !(rd_tensor_add val sd bd pb HR), (rd_tensor_logp val sd bd pb HR).
      rewrite ?orb_true_r, ?orb_true_l. cbn. rewrite ?orb_true_r. reflexivity. }
    rewrite Hten. cbn [rbind].
    rewrite copytraces_one by (rewrite Htr; apply two_wf, gname_neq). cbn [rbind].
    rewrite copytraces_one by (rewrite Hpt; apply two_wf, gname_neq). cbn [rbind].
    unfold forward_trace. cbn [debug_attr in_debug rbind]. rewrite Hty, Hq2. cbn [rbind].
    unfold add_loss. cbn [in_loss].
    match goal with |- context [rmap _ (rmap _ (loss_fn ?o))] => destruct (Hloss o _ eq_refl) as (l & El); rewrite El end.
    cbn [rmap rbind]. rewrite orb_true_r. cbn [add_subs with_loss out_trace out_lw out_output].
    assert (Hwt : weights (S k) (zs ++ [v']) (tnode (pb_target pb (S k)) (detach L v'))
                    (detach L (tadd L (out_lw qo) (tsub L (out_lw po) lu))) (detach L v')).
    { split; [rewrite app_length, Hlen; cbn; lia|].
      split; [cbn [carried]; rewrite pt_app by exact Hlen; reflexivity|].
      split; [|rewrite tnode_logp, pt_app by exact Hlen; apply (rd_target val sd bd pb HR)].
      rewrite (rd_detach val sd bd pb HR), (rd_add val sd bd pb HR), (rd_sub val sd bd pb HR), Hlw, Hlu, Hplw, !(rd_add val sd bd pb HR), !(rd_zero val sd bd pb HR).
      rewrite Hw, Hlp. unfold ais_weight. cbn [sum_below]. rewrite pt_app by exact Hlen.
      rewrite (pt_app_lt zs v' 0) by lia. rewrite (pt_app_lt zs v' k) by lia.
      assert (E1 : sum_below k (fun i => val (bsum L sd bd (logp L (pb_rev pb i (pt (zs ++ [v']) (S i))) (pt (zs ++ [v']) i))))
                 = sum_below k (fun i => val (bsum L sd bd (logp L (pb_rev pb i (pt zs (S i))) (pt zs i))))).
      { apply sum_below_ext. intros i Hi. rewrite !pt_app_lt by lia. reflexivity. }
      assert (E2 : sum_below k (fun i => val (bsum L sd bd (logp L (pb_fwd pb i (pt (zs ++ [v']) i)) (pt (zs ++ [v']) (S i)))))
                 = sum_below k (fun i => val (bsum L sd bd (logp L (pb_fwd pb i (pt zs i)) (pt zs (S i)))))).
      { apply sum_below_ext. intros i Hi. rewrite !pt_app_lt by lia. reflexivity. }
      rewrite E1, E2. cbn [rb rv_value rv_logp]. rewrite Hrv, Hv, carried_fwd, carried_logp. destruct k; lra. }
    unfold good. eexists. eexists. eexists. split; [exact Hwt|]. split.
    - eexists. eexists. split; [reflexivity|].
      split.
      { intros j. destruct (Nat.eq_dec j id) as [->|Hj]; [apply get_set_same|]. rewrite get_set_other by exact Hj.
        destruct (Hps j) as [E|E]; [exact E|]. rewrite E, get_set_other by exact Hj. apply Hcl1. }
      cbn [out_trace out_output out_lw detach_output map fst snd detach_entry rv_value rb].
      rewrite tnode_value, tnode_prov. repeat split. discriminate.
    - cbn [fst]. eexists. eexists (outs ++ [_]). split; [reflexivity|]. split; [rewrite app_length, Hlo; cbn; lia|]. split.
      { eapply spine_step; [reflexivity|reflexivity|exact Hty|exact Hq1|exact Hsp]. }
      intros t y Hy. destruct (Nat.lt_ge_cases t k) as [Ht|Ht].
      + rewrite nth_error_app1 in Hy by (rewrite Hlo; exact Ht). destruct (Hrep t y Hy) as [(px & rr & E1 & E2 & E3) E4]. split.
        * exists px, rr. split; [exact E1|]. split; [exact E2|]. rewrite pt_app_lt by lia. exact E3.
        * rewrite E4, firstn_app. replace (S (S t) - length zs)%nat with 0%nat by lia. cbn [firstn]. rewrite app_nil_r. reflexivity.
      + rewrite nth_error_app2, Hlo in Hy by lia. destruct (t - k)%nat as [|j] eqn:Ej; [|destruct j; discriminate].
        cbn [nth_error] in Hy. injection Hy as <-. assert (t = k) by lia. subst t. split.
        * eexists. eexists. split; [reflexivity|]. cbn [px_proposal_trace]. rewrite Htr. cbn [dget]. rewrite String.eqb_refl.
          split; [reflexivity|]. cbn [rb rv_value]. rewrite pt_app by exact Hlen. reflexivity.
        * cbn [out_lw]. destruct Hwt as (El9 & _ & Ew & _). rewrite Ew, firstn_all2 by lia. reflexivity.
  Qed.
End Vsmc.

Section Loop.
  Context {L : lib} (HL : lib_laws L).
  Notation T := (T L). Notation pyval := (pyval T).
  Context (sd bd rep : pyval) (Hlj : forall b pv, lj_ok L rep b pv = true).
  Context (val : T -> R) (pb : problem L) (HR : reads val sd bd pb).
  Context (dd : D L -> D L)
    (Hdd1 : forall d v, tensor_equal L (logp L d v) (logp L (dd d) v) = true)
    (Hdd2 : forall d v, val (bsum L sd bd (logp L (dd d) v)) = val (bsum L sd bd (logp L d v))).
  Context (loss_fn : out L -> res T) (Hloss : forall o px, out_px o = Some px -> exists l, loss_fn o = Ok l) (avo : bool) (rs : resampler L).
  Context (base : nat) (Hot : forall k, pb_oid_t pb k < base) (Hor : forall k, pb_oid_r pb k < base)
    (Hne : forall k, pb_oid_t pb (S k) <> pb_oid_r pb k).
  Implicit Types kws : dict pyval.
  Notation shape kws := (kwarg "sample_shape" (VTup [VInt 1; VInt 1]) kws).
  Notation step i := (kernel_prog (pb_oid_f pb i) (gname i) (gname (S i)) (pb_fwd pb i) (pb_fwd_rep pb i),
                      (kernel_prog (pb_oid_r pb i) (gname (S i)) (gname i) (pb_rev pb i) (pb_rev_rep pb i),
                       target_prog (pb_oid_t pb (S i)) (gname (S i)) (pb_target pb (S i)))).

  Lemma loop_good n c m : forall k q,
    (forall kws s, shaped sd bd rep kws -> clean s -> same_draws (good sd bd val pb k) (run q c kws s) (chain pb (shape kws) k)) ->
    forall kws s, shaped sd bd rep kws -> clean s ->
      same_draws (good sd bd val pb (k + m))
        (run (vsmc_loop dd loss_fn avo false rs base n k (map (fun i => step i) (seq k m)) q) c kws s) (chain pb (shape kws) (k + m)).
  Proof.
    induction m as [|m IH]; intros k q Hq kws s Hk Hs; cbn [seq map vsmc_loop].
    - rewrite Nat.add_0_r. apply Hq; assumption.
    - rewrite <- plus_Snm_nSm. apply (IH (S k)); [|exact Hk|exact Hs]. clear kws s Hk Hs. intros kws s Hk Hs.
      apply (vsmc_propose_step HL sd bd rep Hlj val pb HR dd Hdd1 Hdd2); auto.
      pose proof (Hq (sub_kwargs VNone (sub_kwargs (VInt (Z.of_nat k)) kws)) s
                    (shaped_sub _ _ _ _ _ (shaped_sub _ _ _ _ _ Hk)) Hs) as H.
      rewrite !kwarg_sub in H by (cbn; intuition discriminate). exact H.
  Qed.

  Lemma combine_seq {A B C} (f : nat -> A) (g : nat -> B) (h : nat -> C) k m :
    combine (map f (seq k m)) (combine (map g (seq k m)) (map h (seq (S k) m))) = map (fun i => (f i, (g i, h (S i)))) (seq k m).
  Proof. revert k. induction m as [|m IH]; intros k; cbn [seq map combine]; [reflexivity|]. f_equal. apply IH. Qed.

  Lemma vsmc_good K c kws s q : shaped sd bd rep kws -> clean s ->
    vsmc dd base (pb_targets pb K) (pb_forwards pb K) (pb_reverses pb K) loss_fn avo false rs = Ok q ->
    same_draws (good sd bd val pb K) (run q c kws s) (chain pb (shape kws) K).
  Proof.
    intros Hk Hs H. unfold vsmc, pb_targets in H. injection H as <-. unfold pb_forwards at 2, pb_reverses. rewrite combine_seq.
    apply (loop_good _ c K 0); [|exact Hk|exact Hs]. clear kws s Hk Hs. intros kws s (K1 & K2 & K3 & K4) Hs.
    eapply sd_teq; [apply (init_free HL sd bd rep); auto|].
    cbn [chain]. constructor. intros v. constructor. eexists. eexists. eexists. split; [|split]; cycle 1.
    - eexists. eexists. split; [reflexivity|]. split; [intros j; apply (Hs j)|]. split; [reflexivity|]. split; [reflexivity|].
      split; [discriminate|]. split; reflexivity.
    - eexists. exists []. split; [reflexivity|]. split; [reflexivity|]. split; [constructor; reflexivity|]. intros [|t] y; discriminate.
    - cbn [rv_value]. split; [reflexivity|]. split; [reflexivity|]. split; [|reflexivity].
      cbn [out_lw]. rewrite (rd_zero val sd bd pb HR). unfold ais_weight. cbn [sum_below pt nth]. lra.
  Qed.
End Loop.

(** the identities of the objects beyond the first [K] steps do not matter *)
Open Scope nat_scope.
Section Relabel.
  Context {L : lib}.
  Definition relabel (pb : problem L) (t r : nat -> nat) : problem L :=
    mkProblem (pb_d0 pb) (pb_rep0 pb) (pb_target pb) (pb_fwd pb) (pb_fwd_rep pb) (pb_rev pb) (pb_rev_rep pb) t (pb_oid_f pb) r.
  Lemma identities_wlog (pb : problem L) base K : identities pb base K -> exists base' t r,
    (forall k, t k < base') /\ (forall k, r k < base') /\ (forall k, t (S k) <> r k) /\
    forall dd loss_fn avo resample rs,
      vsmc dd base' (pb_targets (relabel pb t r) K) (pb_forwards (relabel pb t r) K) (pb_reverses (relabel pb t r) K) loss_fn avo resample rs
      = vsmc dd base (pb_targets pb K) (pb_forwards pb K) (pb_reverses pb K) loss_fn avo resample rs.
  Proof.
    intros (H1 & H2 & H3). destruct K as [|K].
    - exists (S (S (pb_oid_t pb 0))), (fun _ => pb_oid_t pb 0), (fun _ => S (pb_oid_t pb 0)). repeat split; intros; lia.
    - exists base, (fun k => if k <=? S K then pb_oid_t pb k else pb_oid_t pb 1), (fun k => if k <? S K then pb_oid_r pb k else pb_oid_r pb 0).
      split; [|split; [|split]].
      + intros k. destruct (Nat.leb_spec k (S K)); apply H1; lia.
      + intros k. destruct (Nat.ltb_spec k (S K)); apply H2; lia.
      + intros k. destruct (Nat.leb_spec (S k) (S K)), (Nat.ltb_spec k (S K)); try lia; apply H3; lia.
      + intros. f_equal.
        * unfold pb_targets. f_equal. apply map_ext_in. intros k Hk%in_seq. cbn [relabel pb_oid_t pb_target]. destruct (Nat.leb_spec k (S K)); [reflexivity|lia].
        * unfold pb_reverses. apply map_ext_in. intros k Hk%in_seq. cbn [relabel pb_oid_r pb_rev pb_rev_rep]. destruct (Nat.ltb_spec k (S K)); [reflexivity|lia].
  Qed.
  Lemma reads_relabel val sd bd pb t r : reads val sd bd pb -> reads val sd bd (relabel pb t r).
  Proof. intros []; constructor; assumption. Qed.
  Lemma chain_relabel pb t r sh K : chain (relabel pb t r) sh K = chain pb sh K.
  Proof. induction K as [|K IH]; cbn; [reflexivity|]. rewrite IH. reflexivity. Qed.
End Relabel.
