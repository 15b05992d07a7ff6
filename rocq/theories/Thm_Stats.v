(** Proofs of C42 and C43. *)
From Verif Require Import KeyFacts.
From Verif Require Export Thm_Annealing.

Section Traverse.
  Context {L : lib}.
  Notation T := (T L). Notation pyval := (pyval T).

  Lemma traverse_eq {A} (fn : out L -> res A) o memo :
    traverse_proposals fn o memo =
      match out_type o with
      | TyPropose => match get_sub "q_out" o with
                     | Some o' => rbind (rmap (fun x => x :: memo) (fn o)) (traverse_proposals fn o')
                     | None => Err AttributeError end
      | TyExtend => Err ValueError
      | TyCompose =>
          match get_sub "q1_out" o, get_sub "q2_out" o with
          | Some o1, Some o2 =>
              if xorb (valid_inf o1) (valid_inf o2)
              then traverse_proposals fn (if valid_inf o1 then o1 else o2) memo
              else Ok memo
          | _, _ => Err AttributeError
          end
      | TyResample => match get_sub "q_out" o with
                      | Some o' => traverse_proposals fn o' memo
                      | None => Err AttributeError end
      | TyProgram => Err NameError
      end.
  Proof.
    destruct o as [t lw ou ty ix lo ma px subs]. unfold get_sub. cbn [out_type out_subs].
    assert (Hv : forall k l (m : res (list A)),
      (fix visit (k : string) (l : list (string * out L)) (memo : res (list A)) : res (list A) :=
            match l with
            | [] => Err AttributeError
            | (k', o') :: l' =>
                if String.eqb k k' then rbind memo (traverse_proposals fn o') else visit k l' memo
            end) k l m = match dget k l with Some o' => rbind m (traverse_proposals fn o') | None => Err AttributeError end).
    { intros k l m. induction l as [|[k' o'] l IH]; [reflexivity|]. cbn [dget]. destruct (String.eqb k k'); [reflexivity|exact IH]. }
    destruct ty; cbn [traverse_proposals]; try reflexivity.
    - rewrite Hv. reflexivity.
    - destruct (dget "q1_out" subs) as [o1|] eqn:E1; [|reflexivity]. destruct (dget "q2_out" subs) as [o2|] eqn:E2; [|reflexivity].
      destruct (xorb _ _); [|reflexivity]. rewrite Hv. destruct (valid_inf o1); [rewrite E1|rewrite E2]; reflexivity.
    - rewrite Hv. reflexivity.
  Qed.

  Lemma prog_type t c kws s o s' : is_prog t -> returns (run (L := L) t c kws) s o s' -> out_type o = TyProgram.
  Proof.
    destruct t as [oid sg m| | | |]; cbn [is_prog]; try tauto. intros _ H. apply forward_returns in H.
    destruct H as (? & ? & ? & ? & ? & ->) || (decompose [ex and] H; subst; reflexivity); reflexivity.
  Qed.
End Traverse.

Section Stats.
  Context {L : lib}.
  Notation T := (T L). Notation pyval := (pyval T).
  Context (dd : D L -> D L) (loss_fn : out L -> res T) (avo resample : bool) (rs : resampler L) (base n : nat).
  Implicit Types kws : dict pyval.

  Definition step_out (i : nat) (o : out L) : Prop :=
    out_type o = TyPropose /\ out_ix o = Some (VInt (Z.of_nat i)) /\
    (exists x, out_lw o = detach L x /\ is_tensor L x = true) /\
    (exists o0 l0 l, out_loss o = Some (tadd L l l0) /\ loss_fn o0 = Ok l) /\
    exists px, out_px o = Some px.
  (** what is known of a result after [k] steps *)
  Definition spined (k : nat) (o : out L) (outs : list (out L)) : Prop :=
    length outs = k /\ (forall i x, nth_error outs i = Some x -> step_out i x) /\ spine o outs /\
    (k = 0 -> out_type o = TyProgram) /\
    (k <> 0 -> valid_inf o = true /\
      forall A (fn : out L -> res A) f memo, (forall x, In x outs -> fn x = Ok (f x)) ->
        traverse_proposals fn o memo = Ok (map f outs ++ memo)) /\
    (k <> 0 -> out_type o = TyPropose -> exists pre, outs = pre ++ [o]).

  Lemma step_spined k fwd rev p q c :
    is_prog fwd ->
    (forall kws s o s', wf_dict kws -> wf_st s -> resample = false \/ truthy (k_debug kws) = true ->
       returns (run q c kws) s o s' -> exists outs, spined k o outs) ->
    forall kws s o s', wf_dict kws -> wf_st s -> resample = false \/ truthy (k_debug kws) = true ->
      returns (run (vsmc_step dd loss_fn avo resample rs base n k fwd rev p q) c kws) s o s' ->
      exists outs, spined (S k) o outs /\ ((resample && (k <? n - 1)%nat) = false -> exists pre, outs = pre ++ [o]).
  Proof.
    intros Hf Hq kws s o s' Hk Hws Hd H. unfold vsmc_step in H.
    set (prop := IPropose _ _ _ _ _ _) in H.
    assert (Hp : forall kws s o s', wf_dict kws -> wf_st s -> resample = false \/ truthy (k_debug kws) = true ->
       returns (run prop c kws) s o s' -> exists outs, spined (S k) o outs /\ exists pre, outs = pre ++ [o]).
    { clear kws s o s' Hk Hws Hd H. intros kws s o s' Hk Hws Hd H. unfold prop in H.
      apply run_propose_returns in H; [|exact Hk|].
      2:{ intros qo s1 H0. eapply run_returns_wf in H0; [apply H0|apply wf_sub_kwargs, Hk|exact Hws]. }
      destruct H as (qo & s1 & po & s2 & qt & lu & mo & mt & tr & ptr & ttr & fw & l & H). cbn zeta in H.
      destruct H as (_ & _ & _ & Hqo & _ & _ & _ & _ & _ & _ & Hten & _ & _ & _ & Hl & ->).
      cbn [in_ix in_debug in_loss in_loss0 is_none] in *.
      apply run_compose_returns in Hqo; [|apply wf_sub_kwargs, Hk].
      destruct Hqo as (o1 & s3 & o2 & tr2 & l2 & _ & _ & H1 & H2 & _ & _ & _ & Eqo).
      cbn [in_ix in_debug in_loss in_loss0 is_none] in *.
      apply Hq in H1; [|apply wf_sub_kwargs, wf_sub_kwargs, Hk|exact Hws|].
      2:{ destruct Hd as [Hd|Hd]; [left; exact Hd|right]. rewrite !k_debug_sub. exact Hd. }
      destruct H1 as (outs & Hlen & Hsteps & Hsp & H0 & HS & _).
      apply prog_type in H2; [|exact Hf].
      rewrite orb_true_r in *. cbn [add_subs with_loss out_subs app] in *.
      destruct (loss_fn _) as [l0|e] eqn:El; cbn [rmap] in Hl; [|discriminate]. injection Hl as <-.
      match goal with |- exists outs, spined _ ?x outs /\ _ => set (oo := x) end.
      exists (outs ++ [oo]). split; [|exists outs; reflexivity].
      split; [rewrite app_length, Hlen; cbn; lia|]. split.
      { intros i x Hx. destruct (Nat.lt_ge_cases i (length outs)) as [Hi|Hi].
        - rewrite nth_error_app1 in Hx by exact Hi. apply Hsteps, Hx.
        - rewrite nth_error_app2 in Hx by exact Hi. destruct (i - length outs) as [|j] eqn:Ei; [|destruct j; discriminate].
          cbn in Hx. injection Hx as <-. assert (i = k) by lia. subst i.
          split; [reflexivity|]. split; [reflexivity|]. split; [eexists; split; [reflexivity|exact Hten]|].
          split; [eexists; eexists; eexists; split; [reflexivity|exact El]|]. eexists. reflexivity. }
      split.
      { eapply spine_step; [reflexivity|reflexivity|rewrite Eqo; reflexivity|rewrite Eqo; reflexivity|exact Hsp]. }
      split; [discriminate|]. split; [|intros _ _; exists outs; reflexivity]. intros _. split; [reflexivity|].
      intros A fn f memo Hfn. assert (Eoo : out_type oo = TyPropose) by reflexivity. assert (Eos : get_sub "q_out" oo = Some qo) by reflexivity.
      assert (Eqt : out_type qo = TyCompose) by (rewrite Eqo; reflexivity).
      rewrite traverse_eq, Eoo, Eos.
      rewrite (Hfn oo) by (apply in_or_app; right; left; reflexivity). cbn [rmap rbind].
      rewrite traverse_eq, Eqt.
      assert (Eq1 : get_sub "q1_out" qo = Some o1) by (rewrite Eqo; reflexivity).
      assert (Eq2 : get_sub "q2_out" qo = Some o2) by (rewrite Eqo; reflexivity).
      rewrite Eq1, Eq2. assert (V2 : valid_inf o2 = false) by (unfold valid_inf; rewrite H2; reflexivity).
      rewrite V2, map_app. cbn [map]. rewrite <- app_assoc. cbn [app].
      destruct k as [|k].
      - destruct outs; [|discriminate]. assert (V1 : valid_inf o1 = false) by (unfold valid_inf; rewrite (H0 eq_refl); reflexivity).
        rewrite V1. reflexivity.
      - destruct HS as [V1 HS]; [discriminate|]. rewrite V1. cbn [xorb]. apply HS. intros x Hx. apply Hfn, in_or_app. left; exact Hx. }
    destruct (resample && (k <? n - 1)%nat) eqn:Er.
    - apply andb_true_iff in Er. destruct Er as [-> _]. destruct Hd as [Hd|Hd]; [discriminate|].
      apply run_resample_returns in H; [|exact Hk].
      destruct H as (qo & s1 & items & lw2 & c1 & c2 & st2 & _ & H1 & _ & _ & _ & _ & _ & Er).
      unfold k_debug in Hd. rewrite Hd in Er. cbn [orb add_subs out_subs app] in Er.
      apply Hp in H1; [|apply wf_sub_kwargs, Hk|exact Hws|right; rewrite k_debug_sub; exact Hd].
      destruct H1 as (outs & (Hlen & Hsteps & Hsp & H0 & HS & _) & pre & Epre). exists outs.
      split; [|intros; discriminate].
      assert (Esub : get_sub "q_out" o = Some qo) by (rewrite Er; reflexivity).
      assert (Ety : out_type o = TyResample) by (rewrite Er; reflexivity).
      split; [exact Hlen|]. split; [exact Hsteps|].
      split; [eapply spine_resampled; [exact Ety|exact Esub|exact Hsp]|]. split; [discriminate|].
      split; [|intros _ E; rewrite Ety in E; discriminate]. intros _.
      split; [unfold valid_inf; rewrite Ety; reflexivity|]. intros A fn f memo Hfn. rewrite traverse_eq, Ety, Esub. apply HS; [discriminate|exact Hfn].
    - apply Hp in H; [|exact Hk|exact Hws|exact Hd]. destruct H as (outs & H1 & H2). exists outs. split; [exact H1|]. intros _. exact H2.
  Qed.

  Lemma loop_spined c steps : (forall x, In x steps -> is_prog (fst x)) -> forall k q,
    (forall kws s o s', wf_dict kws -> wf_st s -> resample = false \/ truthy (k_debug kws) = true ->
       returns (run q c kws) s o s' -> exists outs, spined k o outs) ->
    forall kws s o s', wf_dict kws -> wf_st s -> resample = false \/ truthy (k_debug kws) = true ->
      returns (run (vsmc_loop dd loss_fn avo resample rs base n k steps q) c kws) s o s' ->
      exists outs, spined (k + length steps) o outs /\
        ((resample && (k + length steps - 1 <? n - 1)%nat) = false -> steps <> [] -> exists pre, outs = pre ++ [o]).
  Proof.
    intros Hst. induction steps as [|[fwd [rev p]] steps IH]; intros k q Hq kws s o s' Hk Hws Hd H.
    - cbn [vsmc_loop length] in *. rewrite Nat.add_0_r. destruct (Hq kws s o s' Hk Hws Hd H) as (outs & Ho). exists outs. split; [exact Ho|].
      intros _ E. exfalso. apply E. reflexivity.
    - cbn [vsmc_loop] in H. cbn [length]. rewrite <- plus_Snm_nSm.
      assert (Hstep := step_spined k fwd rev p q c (Hst _ (or_introl eq_refl)) Hq).
      destruct steps as [|st0 steps].
      + cbn [vsmc_loop length] in *. rewrite Nat.add_0_r. destruct (Hstep kws s o s' Hk Hws Hd H) as (outs & H1 & H2).
        exists outs. split; [exact H1|]. intros E _. apply H2. replace (S k - 1) with k in E by lia. exact E.
      + destruct (IH (fun x Hx => Hst x (or_intror Hx)) (S k) _ (fun kws s o s' Hk Hws Hd H => let '(ex_intro _ outs (conj H1 _)) := Hstep kws s o s' Hk Hws Hd H in ex_intro _ outs H1) kws s o s' Hk Hws Hd H) as (outs & H1 & H2).
        exists outs. split; [exact H1|]. intros E _. apply H2; [exact E|discriminate].
  Qed.
End Stats.

Section Final.
  Context {L : lib}.
  Notation T := (T L). Notation pyval := (pyval T).

  Lemma stats_of outs (Hd : forall x : T, is_tensor L (detach L x) = is_tensor L x)
      (Ha : forall a b : T, is_tensor L (tadd L a b) = is_tensor L a || is_tensor L b) loss_fn
      (Hl : forall o l, loss_fn o = Ok l -> is_tensor L l = true) :
    (forall i x, nth_error outs i = Some x -> step_out loss_fn i x) ->
    exists f, (forall x, In x outs -> stats_entry x = Ok (f x)) /\
      (forall x, fst (fst (fst (fst (f x)))) = detach L (out_lw x)) /\
      (forall x, In x outs -> Some (snd (fst (fst (fst (f x))))) = option_map (detach L) (out_loss x)) /\
      (forall x, In x outs -> Some (snd (fst (fst (f x)))) = option_map px_proposal_trace (out_px x)) /\
      (forall x, In x outs -> Some (snd (fst (f x))) = option_map px_target_trace (out_px x)) /\
      (forall x, snd (f x) = x).
  Proof.
    intros Hs.
    exists (fun x => (detach L (out_lw x), match out_loss x with Some l => detach L l | None => tzero L end,
                match out_px x with Some px => px_proposal_trace px | None => [] end,
                match out_px x with Some px => px_target_trace px | None => [] end, x)). cbn [fst snd].
    assert (Hin : forall x, In x outs -> exists i, step_out loss_fn i x).
    { intros x Hx. apply In_nth_error in Hx. destruct Hx as (i & Hi). exists i. apply Hs, Hi. }
    split; [|split; [reflexivity|]].
    - intros x Hx. destruct (Hin x Hx) as (i & _ & _ & (w & Hw & Ht) & (o0 & l0 & l & Hlo & Hl0) & px & Hpx).
      unfold stats_entry, detach_attr. rewrite Hw, Hd, Ht. cbn [rbind]. rewrite Hlo, Ha, (Hl _ _ Hl0). cbn [orb rbind]. rewrite Hpx. reflexivity.
    - repeat split; intros x Hx; destruct (Hin x Hx) as (i & _ & _ & _ & (o0 & l0 & l & Hlo & Hl0) & px & Hpx); rewrite ?Hlo, ?Hpx; reflexivity.
  Qed.

  Lemma loop_snoc dd loss_fn avo resample rs base n steps fwd rev p : forall k q,
    vsmc_loop (L := L) dd loss_fn avo resample rs base n k (steps ++ [(fwd, (rev, p))]) q
    = vsmc_step dd loss_fn avo resample rs base n (k + length steps) fwd rev p (vsmc_loop dd loss_fn avo resample rs base n k steps q).
  Proof.
    induction steps as [|[f [r p']] steps IH]; intros k q; cbn [app vsmc_loop length].
    - rewrite Nat.add_0_r. reflexivity.
    - rewrite IH, <- plus_Snm_nSm. reflexivity.
  Qed.

  Lemma step_hidden dd loss_fn avo rs base n k fwd rev p id q' ix0 l0 c kws s o s' :
    is_prog fwd -> wf_dict kws -> wf_st s -> truthy (k_debug kws) = false ->
    returns (run (vsmc_step (L := L) dd loss_fn avo false rs base n k fwd rev p (IResample id q' ix0 l0 rs false)) c kws) s o s' ->
    forall A (fn : out L -> res A) memo, (exists a, fn o = Ok a) -> traverse_proposals fn o memo = Err AttributeError.
  Proof.
    intros Hf Hk Hws Hd H A fn memo (a & Ha). unfold vsmc_step in H. cbn [andb] in H.
    apply run_propose_returns in H; [|exact Hk|].
    2:{ intros qo s1 H0. eapply run_returns_wf in H0; [apply H0|apply wf_sub_kwargs, Hk|exact Hws]. }
    destruct H as (qo & s1 & po & s2 & qt & lu & mo & mt & tr & ptr & ttr & fw & l & H). cbn zeta in H.
    destruct H as (_ & _ & _ & Hqo & _ & _ & _ & _ & _ & _ & _ & _ & _ & _ & _ & Eo).
    cbn [in_ix in_debug in_loss in_loss0 is_none] in *.
    apply run_compose_returns in Hqo; [|apply wf_sub_kwargs, Hk].
    destruct Hqo as (o1 & s3 & o2 & tr2 & l2 & _ & _ & H1 & H2 & _ & _ & _ & Eqo).
    cbn [in_ix in_debug in_loss in_loss0 is_none] in *.
    apply prog_type in H2; [|exact Hf].
    apply run_resample_returns in H1; [|apply wf_sub_kwargs, wf_sub_kwargs, Hk].
    destruct H1 as (q0 & s5 & items & lw2 & c1 & c2 & st2 & _ & _ & _ & _ & _ & _ & _ & E1).
    match type of E1 with context [truthy ?x || false] => change x with (k_debug (L := L) (sub_kwargs VNone (sub_kwargs (VInt (Z.of_nat k)) kws))) in E1 end.
    rewrite !k_debug_sub, Hd in E1. cbn [orb add_subs] in E1.
    rewrite orb_true_r in *. cbn [add_subs with_loss out_subs app] in *.
    rewrite traverse_eq. replace (out_type o) with TyPropose by (rewrite Eo; reflexivity).
    replace (get_sub "q_out" o) with (Some qo) by (rewrite Eo; reflexivity).
    rewrite Ha. cbn [rmap rbind]. rewrite traverse_eq. replace (out_type qo) with TyCompose by (rewrite Eqo; reflexivity).
    replace (get_sub "q1_out" qo) with (Some o1) by (rewrite Eqo; reflexivity).
    replace (get_sub "q2_out" qo) with (Some o2) by (rewrite Eqo; reflexivity).
    assert (V2 : valid_inf o2 = false) by (unfold valid_inf; rewrite H2; reflexivity).
    assert (V1 : valid_inf o1 = true) by (rewrite E1; reflexivity).
    rewrite V1, V2. cbn [xorb]. rewrite traverse_eq. rewrite E1. reflexivity.
  Qed.

  (** ** stl_trace *)
  Lemma dget_filter_keep {V} (P : string -> bool) k (d : dict V) : dget k (filter (fun kv => P (fst kv)) d) = if P k then dget k d else None.
  Proof.
    induction d as [|[k' v] d IH]; cbn [filter dget fst]; [destruct (P k); reflexivity|].
    destruct (String.eqb_spec k k') as [<-|Hne].
    - destruct (P k); [cbn [dget]; rewrite String.eqb_refl; reflexivity|exact IH].
    - apply String.eqb_neq in Hne. destruct (P k'); [cbn [dget]; rewrite Hne|]; exact IH.
  Qed.
  Lemma stl_spec (dd : D L -> D L) tr ix tr' : wf_dict tr -> stl_trace dd tr ix = Ok tr' ->
    let name := gname_z (ix + 1) in
    exists r d, dget name tr = Some r /\ rv_den r = Proper d /\
      forall a, dget a tr' =
        if String.eqb a name then Some (mkRV (Proper (dd d)) (rv_value r) (logp L (dd d) (rv_value r)) SAMPLED true true)
        else if substr a name then None else dget a tr.
  Proof.
    intros Hwf H. cbn zeta. unfold stl_trace in H. set (name := gname_z (ix + 1)) in *.
    rewrite copytraces_filter in H by exact Hwf. cbn [rbind] in H.
    destruct (dget name tr) as [r|] eqn:Er; [|discriminate]. unfold eval_detached in H.
    destruct (rv_den r) as [d| |] eqn:Ed; try discriminate. destruct (tensor_equal L _ _); [|discriminate].
    cbn [rbind] in H. injection H as <-. exists r, d. split; [reflexivity|]. split; [exact Ed|].
    intros a. rewrite dget_dset. destruct (String.eqb a name) eqn:Ea; [reflexivity|].
    unfold keep. rewrite (dget_filter_keep (fun k => negb (substr k name))). destruct (substr a name); reflexivity.
  Qed.
End Final.
