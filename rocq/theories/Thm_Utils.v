(** Saving and loading checkpoints. *)
From Verif Require Import BaseFacts.
From Verif Require Export KeyFacts SpecUtils.

Lemma load_state_dict_ok {W} fits (cur saved : dict W) : wf_dict saved ->
  loadable fits cur saved -> load_state_dict fits cur saved = Ok saved.
Proof.
  intros Hwf [Hk Hf]. unfold load_state_dict.
  assert (Hc : wf_dict cur) by (unfold wf_dict in *; congruence).
  assert (H1 : forallb (fun k => dmem k saved) (dkeys cur) = true).
  { apply forallb_forall. intros k H. apply dmem_In. congruence. }
  assert (H2 : forallb (fun k => dmem k cur) (dkeys saved) = true).
  { apply forallb_forall. intros k H. apply dmem_In. congruence. }
  assert (H3 : forallb (fun kv => match dget (fst kv) saved with Some w => fits (snd kv) w | None => false end) cur = true).
  { apply forallb_forall. intros [k w] H. cbn. pose proof (In_dget _ _ _ Hc H) as Hg.
    destruct (dget k saved) as [w'|] eqn:E; [eauto|]. apply dget_None in E. rewrite <- Hk in E. apply dget_In_keys in Hg. tauto. }
  rewrite H1, H2, H3. cbn [andb]. f_equal.
  assert (G : forall cur sv, dkeys cur = dkeys sv -> (forall k, In k (dkeys sv) -> dget k saved = dget k sv) -> wf_dict sv ->
      map (fun kv => (fst kv, match dget (fst kv) saved with Some w => w | None => snd kv end)) cur = sv).
  { clear. induction cur as [|[k w] cur IH]; intros [|[k' w'] sv] E Hg Hw; try discriminate; [reflexivity|].
    cbn in E. injection E as -> E. cbn [map fst snd]. rewrite (Hg k') by (left; reflexivity). cbn [dget].
    rewrite String.eqb_refl. f_equal. inversion Hw; subst. apply IH; [exact E| |assumption].
    intros k Hin. rewrite Hg by (right; exact Hin). cbn [dget].
    destruct (String.eqb_spec k k') as [->|]; [|reflexivity]. unfold dkeys in *. tauto. }
  apply G; [exact Hk|reflexivity|exact Hwf].
Qed.

Lemma load_models_ok {W} fits (models : dict nat) (ckpt : dict (dict W)) h :
  (forall k m, In (k, m) models -> exists sd, dget k ckpt = Some sd /\ wf_dict sd /\ loadable fits (h m) sd) ->
  (forall k k' m, In (k, m) models -> In (k', m) models -> dget k ckpt = dget k' ckpt) ->
  (forall k m sd, In (k, m) models -> dget k ckpt = Some sd -> loadable fits sd sd) ->
  exists h', load_models fits models ckpt h = (h', Ok tt) /\
    (forall k m, In (k, m) models -> dget k ckpt = Some (h' m)) /\
    (forall m, (forall k, ~ In (k, m) models) -> h' m = h m).
Proof.
  intros H1 H2 H4. revert h H1. induction models as [|[k m] ms IH]; intros h H1.
  - exists h. cbn. repeat split; tauto.
  - destruct (H1 k m (or_introl eq_refl)) as (sd & Hg & Hw & Hl).
    cbn [load_models]. rewrite Hg, load_state_dict_ok by assumption.
    destruct (IH) with (h := fun m' => if Nat.eqb m' m then sd else h m') as (h' & E & Ha & Hb).
    + intros k0 k' m0 A B. apply (H2 k0 k' m0); right; assumption.
    + intros k0 m0 sd0 A. apply (H4 k0 m0 sd0). right. exact A.
    + intros k' m' Hin. destruct (H1 k' m' (or_intror Hin)) as (sd' & Hg' & Hw' & Hl').
      exists sd'. split; [exact Hg'|]. split; [exact Hw'|].
      destruct (Nat.eqb_spec m' m) as [->|]; [|exact Hl'].
      assert (sd' = sd) as ->.
      { enough (Some sd' = Some sd) by congruence. rewrite <- Hg, <- Hg'. apply (H2 k' k m); [right; exact Hin|left; reflexivity]. }
      apply (H4 k m sd); [left; reflexivity|exact Hg].
    + exists h'. split; [exact E|]. split.
      * intros k' m' [[= <- <-]|Hin]; [|apply Ha; exact Hin].
        destruct (in_dec Nat.eq_dec m (map snd ms)) as [Hm|Hm].
        -- apply in_map_iff in Hm. destruct Hm as ([k2 m2] & E2 & Hin). cbn in E2. subst m2.
           rewrite <- (Ha k2 m Hin). apply (H2 k k2 m); [left; reflexivity|right; exact Hin].
        -- rewrite Hb, Nat.eqb_refl; [exact Hg|]. intros k2 Hin. apply Hm. apply (in_map snd) in Hin. exact Hin.
      * intros m' Hn. rewrite Hb.
        -- destruct (Nat.eqb_spec m' m) as [->|]; [|reflexivity]. exfalso. apply (Hn k). left. reflexivity.
        -- intros k2 Hin. apply (Hn k2). right. exact Hin.
Qed.

Lemma save_models_get {W} (models : dict nat) (h : nat -> dict W) k :
  dget k (save_models models h) = option_map h (dget k models).
Proof. induction models as [|[k' m] ms IH]; cbn; [reflexivity|]. destruct (String.eqb k k'); [reflexivity|exact IH]. Qed.

Lemma named_items it names gs : named it names gs -> models_as_dict it names = Ok (all_items 0 gs).
Proof.
  intros H. destruct H as [names gs mss Hl H|names gs mss Hl H]; cbn [models_as_dict].
  - rewrite Hl, Nat.eqb_refl. rewrite (add_groups_items 0 _ (combine names mss)); [reflexivity| |intros k _ []].
    revert names Hl. induction H as [|g ms gs mss Hg H IH]; intros [|n names] Hl; try discriminate; cbn; constructor.
    + split; [reflexivity|exact Hg].
    + apply IH. injection Hl. auto.
  - rewrite Hl, Nat.eqb_refl.
    assert (Hs : forallb (fun kv => is_seq (snd kv)) gs = true).
    { clear Hl. induction H as [|[n g] [n' ms] gs mss [_ Hg] H IH]; [reflexivity|]. cbn in *. rewrite Hg. exact IH. }
    rewrite Hs. cbn [andb]. rewrite (add_groups_items 0 _ mss); [reflexivity| |intros k _ []].
    clear -H. induction H as [|[n g] [n' ms] gs mss [Hn Hg] H IH]; constructor; [|exact IH].
    cbn in *. rewrite Hg. auto.
Qed.
