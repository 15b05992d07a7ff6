(** Proofs of C19_same_run and C75: losses along the intermediate results of one run. *)
From Verif Require Import KeyFacts.
From Verif Require Export Thm_Calls Thm_Stats SpecLoss.

Lemma F2_len {A B} (R : A -> B -> Prop) l m : Forall2 R l m -> length l = length m.
Proof. induction 1; cbn; congruence. Qed.

Section Loss.
  Context {L : lib}.
  Notation T := (T L). Notation pyval := (pyval T).

  Lemma with_subs name r1 rest d (Hd : d = true) (r0 : out L) l : out_loss r0 = None -> out_subs r0 = [] ->
    let r := add_subs d ((name, r1) :: rest) (with_loss r0 l) in
    get_sub name r = Some r1 /\ out_loss r = Some l /\ before_loss r = r0 /\ out_type r = out_type r0 /\ out_ix r = out_ix r0.
  Proof.
    subst d. destruct r0 as [a b c d e f g h i]; cbn. intros -> ->. cbn. unfold get_sub. cbn. rewrite String.eqb_refl. repeat split; reflexivity.
  Qed.

  Lemma run_tracks t : forall c kws s (r : out L) s', wf_dict kws -> wf_st s -> truthy (k_debug kws) = true ->
    returns (run t c kws) s r s' -> tracks t r.
  Proof.
    induction t as [oid sg m|oid q IHq ix l0 rl dbg|oid p IHp f IHf o|oid q2 IH2 q1 IH1 o|oid p IHp q IHq o tf nr];
      intros c kws s r s' W Ws Hd H; cbn [tracks].
    - split; [eapply program_loss, H|]. eapply (prog_type (IProg oid sg m)); [exact I|exact H].
    - apply run_resample_returns in H; [|exact W].
      destruct H as (qo & s1 & items & lw2 & c1 & c2 & st2 & _ & Hq & _ & _ & _ & _ & _ & Hr).
      assert (Hd' : truthy (k_debug (sub_kwargs ix kws)) = true) by (rewrite k_debug_sub; exact Hd).
      specialize (IHq _ _ _ _ _ (wf_sub_kwargs _ _ W) Ws Hd' Hq). unfold k_debug in Hd. rewrite Hd in Hr. cbn [orb add_subs out_subs app] in Hr.
      exists qo. subst r. repeat split; try reflexivity; try exact IHq. cbn [out_ix]. intros ->. reflexivity.
    - apply run_extend_returns in H; [|exact W|exact Ws].
      destruct H as (po & s1 & fo & s2 & lu & tr & l & _ & _ & Hp & _ & _ & _ & _ & _ & _ & _ & Hl & Hr).
      assert (Ws1 : wf_st (set_cond (oid_of f) (get_cond oid s) (set_cond (oid_of p) (get_cond oid s) s))).
      { apply wf_set_cond; [apply wf_set_cond; [exact Ws|]|]; intros t Ht; eapply Ws, Ht. }
      assert (Hd' : truthy (k_debug (sub_kwargs (in_ix o) kws)) = true) by (rewrite k_debug_sub; exact Hd).
      specialize (IHp _ _ _ _ _ (wf_sub_kwargs _ _ W) Ws1 Hd' Hp). unfold k_debug in Hd. rewrite Hd in Hr. cbn [orb] in Hr.
      match type of Hr with r = add_subs _ _ (with_loss ?r0 _) => destruct (with_subs "p_out" po [("f_out", fo)] true eq_refl r0 l eq_refl eq_refl) as (E1 & E2 & E3 & E4 & E5) end.
      rewrite <- Hr in E1, E2, E3, E4, E5. exists po. rewrite E1, E2, E3, E4, E5. repeat split; try reflexivity; try exact IHp; [|exists l; split; [exact Hl|reflexivity]].
      cbn [out_ix]. intros ->. reflexivity.
    - apply run_compose_returns in H; [|exact W].
      destruct H as (o1 & s1 & o2 & tr & l & _ & _ & H1 & _ & _ & _ & Hl & Hr).
      assert (Hd' : truthy (k_debug (sub_kwargs (in_ix o) kws)) = true) by (rewrite k_debug_sub; exact Hd).
      specialize (IH1 _ _ _ _ _ (wf_sub_kwargs _ _ W) Ws Hd' H1). unfold k_debug in Hd. rewrite Hd in Hr. cbn [orb] in Hr.
      match type of Hr with r = add_subs _ _ (with_loss ?r0 _) => destruct (with_subs "q1_out" o1 [("q2_out", o2)] true eq_refl r0 l eq_refl eq_refl) as (E1 & E2 & E3 & E4 & E5) end.
      rewrite <- Hr in E1, E2, E3, E4, E5. exists o1. rewrite E1, E2, E3, E4, E5. repeat split; try reflexivity; try exact IH1; [|exists l; split; [exact Hl|reflexivity]].
      cbn [out_ix]. intros ->. reflexivity.
    - apply run_propose_returns in H; [|exact W|].
      2:{ intros qo s1 Hq. exact (proj1 (run_returns_wf _ _ _ _ _ _ (wf_sub_kwargs _ _ W) Ws Hq)). }
      destruct H as (qo & s1 & po & s2 & qt & lu & mo & mt & tr & pt & tt' & fw & l & _ & _ & _ & Hq & _ & _ & _ & _ & _ & _ & _ & _ & _ & _ & Hl & Hr).
      assert (Hd' : truthy (k_debug (sub_kwargs (in_ix o) kws)) = true) by (rewrite k_debug_sub; exact Hd).
      specialize (IHq _ _ _ _ _ (wf_sub_kwargs _ _ W) Ws Hd' Hq). unfold k_debug in Hd. rewrite Hd in Hr. cbn [orb] in Hr.
      match type of Hr with r = add_subs _ _ (with_loss ?r0 _) => destruct (with_subs "q_out" qo [("p_out", po)] true eq_refl r0 l eq_refl eq_refl) as (E1 & E2 & E3 & E4 & E5) end.
      rewrite <- Hr in E1, E2, E3, E4, E5. exists qo. rewrite E1, E2, E3, E4, E5. repeat split; try reflexivity; try exact IHq; [|exists l; split; [exact Hl|reflexivity]].
      cbn [out_ix]. intros ->. reflexivity.
  Qed.

  (** programs in which only the proposal steps have loss functions *)
  Fixpoint quiet (t : inf L) : Prop :=
    match t with
    | IProg _ _ _ => True
    | IResample _ q _ l0 _ _ => l0 = None /\ quiet q
    | IExtend _ _ _ _ => False
    | ICompose _ _ q1 o => in_loss o = default_loss /\ in_loss0 o = None /\ quiet q1
    | IPropose _ _ q o _ _ => in_loss0 o = None /\ quiet q
    end.
  Definition kind (t : inf L) : otype :=
    match t with
    | IProg _ _ _ => TyProgram | IResample _ _ _ _ _ _ => TyResample | IExtend _ _ _ _ => TyExtend
    | ICompose _ _ _ _ => TyCompose | IPropose _ _ _ _ _ _ => TyPropose end.
  Definition prev_kind (q : inf L) : option otype := match q with ICompose _ _ q1 _ => Some (kind q1) | _ => None end.
  Fixpoint popts (t : inf L) : list (infopts L * option otype) :=
    match t with
    | IProg _ _ _ => []
    | IResample _ q _ _ _ _ => popts q
    | IExtend _ _ _ _ => []
    | ICompose _ _ q1 _ => popts q1
    | IPropose _ _ q o _ _ => popts q ++ [(o, prev_kind q)]
    end.
  Fixpoint chain (fs : list (infopts L * option otype)) (xs : list (out L)) (acc : T) : res T :=
    match fs, xs with
    | f :: fs', x :: xs' => rbind (in_loss (fst f) (before_loss x) acc) (chain fs' xs')
    | _, _ => Ok acc
    end.
  Lemma chain_snoc fs xs f x acc : length fs = length xs ->
    chain (fs ++ [f]) (xs ++ [x]) acc = rbind (chain fs xs acc) (in_loss (fst f) (before_loss x)).
  Proof.
    revert xs acc. induction fs as [|g fs IH]; intros [|y xs] acc H; try discriminate; cbn [app chain].
    - cbn [rbind]. destruct (in_loss _ _ _); reflexivity.
    - destruct (in_loss (fst g) _ _) as [a|e]; cbn [rbind]; [|reflexivity]. apply IH. injection H as H. exact H.
  Qed.
  Definition reports (f : infopts L * option otype) (x : out L) : Prop :=
    out_type x = TyPropose /\ (is_none (in_ix (fst f)) = false -> out_ix x = Some (in_ix (fst f))) /\
    (forall ty, snd f = Some ty -> continues x ty).
  Lemma tracks_type t r : tracks t r -> out_type r = kind t.
  Proof. destruct t; cbn; [tauto|..]; intros H; decompose [ex and] H; assumption. Qed.
  Lemma tracks_steps t : forall r, quiet t -> tracks t r ->
    exists outs, proposals r outs /\ Forall2 reports (popts t) outs /\ chain (popts t) outs (tzero L) = Ok (passed None r).
  Proof.
    induction t as [oid sg m|oid q IHq ix l0 rl dbg|oid p IHp f IHf o|oid q2 IH2 q1 IH1 o|oid p IHp q IHq o tf nr]; intros r Hq Ht; cbn [quiet tracks popts] in *.
    - exists []. destruct Ht as [Hl Hty]. split; [constructor; exact Hty|]. split; [constructor|]. cbn. unfold passed. rewrite Hl. reflexivity.
    - destruct Hq as [-> Hq]. destruct Ht as (r1 & E1 & E2 & E3 & _ & E5). destruct (IHq r1 Hq E2) as (outs & H1 & H2 & H3).
      exists outs. split; [eapply at_resample; eassumption|]. split; [exact H2|]. rewrite H3. unfold passed at 2. rewrite E5. reflexivity.
    - destruct Hq.
    - destruct Hq as (El & El0 & Hq). destruct Ht as (r1 & E1 & E2 & E3 & _ & l & E5 & E6). destruct (IH1 r1 Hq E2) as (outs & H1 & H2 & H3).
      exists outs. split; [eapply at_compose; eassumption|]. split; [exact H2|]. rewrite H3. unfold passed at 2. rewrite E6.
      rewrite El, El0 in E5. unfold default_loss in E5. exact E5.
    - destruct Hq as (El0 & Hq). destruct Ht as (r1 & E1 & E2 & E3 & E4 & l & E5 & E6). destruct (IHq r1 Hq E2) as (outs & H1 & H2 & H3).
      exists (outs ++ [r]). split; [eapply at_propose; eassumption|]. split.
      + apply Forall2_app; [exact H2|]. constructor; [|constructor]. split; [exact E3|]. split; [exact E4|].
        intros ty Hty. cbn [snd] in Hty. destruct q as [| | |oid2 q2 q1 o2|]; try discriminate. injection Hty as <-.
        cbn [tracks] in E2. destruct E2 as (r2 & F1 & F2 & _). exists r1, r2. split; [exact E1|]. split; [exact F1|]. apply tracks_type, F2.
      + rewrite chain_snoc by (eapply F2_len, H2). rewrite H3. cbn [rbind fst]. unfold passed at 2. rewrite E6. rewrite El0 in E5. exact E5.
  Qed.

  (** *** vsmc *)
  Lemma step_popts dd loss_fn avo (resample : bool) rs base n k fwd rev p q :
    popts (vsmc_step dd loss_fn avo resample rs base n k fwd rev p q)
    = popts q ++ [(mkOpts (fun o loss => rmap (fun l => tadd L l loss) (loss_fn o)) None (VInt (Z.of_nat k)) true, Some (kind q))] /\
    (quiet q -> quiet (vsmc_step dd loss_fn avo resample rs base n k fwd rev p q)) /\
    kind (vsmc_step dd loss_fn avo resample rs base n k fwd rev p q) = (if resample && (k <? n - 1)%nat then TyResample else TyPropose).
  Proof.
    unfold vsmc_step. destruct (resample && (k <? n - 1)%nat); cbn [popts quiet kind prev_kind in_loss0 in_loss]; repeat split; try reflexivity; tauto.
  Qed.
  Lemma loop_popts dd loss_fn avo (resample : bool) rs base n steps : forall k q,
    (k + length steps <= n)%nat ->
    kind q = match k with O => TyProgram | S _ => if resample then TyResample else TyPropose end \/ steps = [] ->
    popts (vsmc_loop dd loss_fn avo resample rs base n k steps q)
    = popts q ++ map (fun i => (mkOpts (fun o loss => rmap (fun l => tadd L l loss) (loss_fn o)) None (VInt (Z.of_nat i)) true,
        Some (match i with O => TyProgram | S _ => if resample then TyResample else TyPropose end))) (seq k (length steps)) /\
    (quiet q -> quiet (vsmc_loop dd loss_fn avo resample rs base n k steps q)).
  Proof.
    induction steps as [|[fwd [rev p]] steps IH]; intros k q Hn Hk; cbn [vsmc_loop length seq map]; [rewrite app_nil_r; split; [reflexivity|tauto]|].
    destruct (step_popts dd loss_fn avo resample rs base n k fwd rev p q) as (E1 & E2 & E3).
    cbn [length] in Hn. destruct (IH (S k) (vsmc_step dd loss_fn avo resample rs base n k fwd rev p q)) as [E4 E5]; [lia| |].
    - destruct steps; [right; reflexivity|left]. rewrite E3. cbn [length] in Hn. assert (Hlt : (k <? n - 1)%nat = true) by (apply Nat.ltb_lt; lia).
      rewrite Hlt, andb_true_r. reflexivity.
    - rewrite E4, E1, <- app_assoc. cbn [app]. destruct Hk as [Hk|Hk]; [|discriminate]. rewrite Hk. split; [reflexivity|tauto].
  Qed.
  Lemma loop_kind dd loss_fn avo (resample : bool) rs base n steps : forall k q, (k + length steps)%nat = n ->
    kind (vsmc_loop dd loss_fn avo resample rs base n k steps q) = match steps with [] => kind q | _ => TyPropose end.
  Proof.
    induction steps as [|[fwd [rev p]] steps IH]; intros k q Hn; cbn [vsmc_loop]; [reflexivity|]. cbn [length] in Hn.
    rewrite IH by lia. destruct steps; [|reflexivity]. rewrite (proj2 (proj2 (step_popts _ _ _ _ _ _ _ _ _ _ _ _))).
    cbn [length] in Hn. assert (Hlt : (k <? n - 1)%nat = false) by (apply Nat.ltb_ge; lia). rewrite Hlt, andb_false_r. reflexivity.
  Qed.
  Lemma chain_added (fn : out L -> res T) (g : nat -> pyval) (h : nat -> option otype) is_ : forall xs acc total,
    length xs = length is_ ->
    chain (map (fun i => (mkOpts (fun o loss => rmap (fun l => tadd L l loss) (fn o)) None (g i) true, h i)) is_) xs acc = Ok total ->
    exists ls, Forall2 (fun x l => fn (before_loss x) = Ok l) xs ls /\ total = fold_left (fun total l => tadd L l total) ls acc.
  Proof.
    induction is_ as [|i is_ IH]; intros [|x xs] acc total Hl H; try discriminate; cbn [map chain] in H.
    - injection H as <-. exists []. split; [constructor|reflexivity].
    - cbn [fst in_loss] in H. destruct (fn (before_loss x)) as [l|e] eqn:El; [|discriminate]. cbn [rmap rbind] in H.
      destruct (IH xs (tadd L l acc) total) as (ls & H1 & H2); [injection Hl as Hl; exact Hl|exact H|].
      exists (l :: ls). split; [constructor; assumption|exact H2].
  Qed.
  Lemma passed_some t (o : out L) : kind t <> TyProgram -> tracks t o -> out_loss o = Some (passed None o).
  Proof. destruct t; cbn [kind tracks]; intros Hk H; [congruence|..]; decompose [ex and] H; unfold passed; match goal with E : out_loss o = Some _ |- _ => rewrite E end; reflexivity. Qed.
End Loss.
