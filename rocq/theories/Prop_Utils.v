(** Property C39: checkpoints. *)
From Verif Require Import BaseFacts Thm_Utils.

(** the key determines the position and the name, whatever characters the name has *)
Theorem C39_key_injective : forall i name j i' name' j',
  model_key i name j = model_key i' name' j' -> i = i' /\ name = name' /\ j = j'.
Proof. exact model_key_inj. Qed.
Print Assumptions C39_key_injective.

(** every model of every group is there, once, under a key of its own *)
Theorem C39_no_model_lost : forall it names gs, named it names gs ->
  exists d key, models_as_dict it names = Ok d /\ wf_dict d /\
    length d = list_sum (map (fun g => length (snd g)) gs) /\
    (forall i j m, model_at gs i j m -> dget (key i j) d = Some m) /\
    (forall k m, dget k d = Some m -> exists i j, model_at gs i j m /\ k = key i j) /\
    (forall i j m i' j' m', model_at gs i j m -> model_at gs i' j' m' -> key i j = key i' j' -> i = i' /\ j = j').
Proof.
  intros it names gs H. exists (all_items 0 gs), (fun i j => model_key i (nth i (map fst gs) "") j).
  split; [apply named_items, H|]. split; [apply wf_all_items|]. split; [apply all_items_length|].
  assert (Hn : forall i j m, model_at gs i j m -> exists ms, nth_error gs i = Some (nth i (map fst gs) "", ms) /\ nth_error ms j = Some m).
  { intros i j m (name & ms & H1 & H2). exists ms. split; [|exact H2]. rewrite H1. do 2 f_equal. symmetry.
    apply nth_error_nth. rewrite nth_error_map, H1. reflexivity. }
  split; [|split].
  - intros i j m Hm. destruct (Hn _ _ _ Hm) as (ms & H1 & H2). apply In_dget; [apply wf_all_items|].
    apply In_all_items. exists i, j, (nth i (map fst gs) ""), ms. auto.
  - intros k m Hk. apply dget_In, In_all_items in Hk. destruct Hk as (i & j & name & ms & H1 & H2 & ->).
    exists i, j. split; [exists name, ms; auto|]. cbn. f_equal. symmetry. apply nth_error_nth. rewrite nth_error_map, H1. reflexivity.
  - intros i j m i' j' m' _ _ Hk. apply model_key_inj in Hk. tauto.
Qed.
Print Assumptions C39_no_model_lost.

(** names and groups must align *)
Theorem C39_names_checked : forall it names,
  length names <> match it with MSeq gs => length gs | MDict gs => length gs end ->
  models_as_dict it names = Err AssertionError.
Proof.
  intros [gs|gs] names H; cbn; apply Nat.eqb_neq in H; rewrite H; [|rewrite andb_false_r]; reflexivity.
Qed.
Print Assumptions C39_names_checked.

(** saving, and loading (any time later) into models grouped in the same way: every model gets
    the state that the model at its position had when saved; no other model changes.  The
    models loaded into may be the saved ones or others; a model may occur several times if the
    positions where it occurs were saved with the same state. *)
Theorem C39_restore : forall W (fits : W -> W -> bool) it names gs it' names' gs' d d' h1 h2,
  named it names gs -> named it' names' gs' -> map fst gs' = map fst gs ->
  models_as_dict it names = Ok d -> models_as_dict it' names' = Ok d' ->
  (forall i j m', model_at gs' i j m' -> exists m, model_at gs i j m) ->
  (forall i j m m', model_at gs i j m -> model_at gs' i j m' ->
     wf_dict (h1 m) /\ loadable fits (h2 m') (h1 m) /\ loadable fits (h1 m) (h1 m)) ->
  (forall i j i' j' m1 m2 m', model_at gs i j m1 -> model_at gs i' j' m2 ->
     model_at gs' i j m' -> model_at gs' i' j' m' -> h1 m1 = h1 m2) ->
  exists h3, load_models fits d' (save_models d h1) h2 = (h3, Ok tt) /\
    (forall i j m m', model_at gs i j m -> model_at gs' i j m' -> h3 m' = h1 m) /\
    (forall m', (forall i j, ~ model_at gs' i j m') -> h3 m' = h2 m').
Proof.
  intros W fits it names gs it' names' gs' d d' h1 h2 Hn Hn' Hnames Hd Hd' Hpos Hload Hshare.
  rewrite (named_items _ _ _ Hn) in Hd. rewrite (named_items _ _ _ Hn') in Hd'.
  injection Hd as <-. injection Hd' as <-.
  assert (Hget : forall i j name ms m, nth_error gs' i = Some (name, ms) -> model_at gs i j m ->
            dget (model_key i name j) (save_models (all_items 0 gs) h1) = Some (h1 m)).
  { intros i j name ms m Hi (name0 & ms0 & H1 & H2). rewrite save_models_get.
    assert (name0 = name) as ->.
    { pose proof (f_equal (fun l => nth_error l i) Hnames) as E. cbn in E. rewrite !nth_error_map, Hi, H1 in E. cbn in E. congruence. }
    rewrite (In_dget _ m); [reflexivity|apply wf_all_items|]. apply In_all_items. exists i, j, name, ms0. auto. }
  assert (Hat : forall k m', In (k, m') (all_items 0 gs') -> exists i j name ms m,
      nth_error gs' i = Some (name, ms) /\ nth_error ms j = Some m' /\ k = model_key i name j /\ model_at gs i j m /\ model_at gs' i j m' /\
      dget k (save_models (all_items 0 gs) h1) = Some (h1 m)).
  { intros k m' Hin. apply In_all_items in Hin. destruct Hin as (i & j & name & ms & H1 & H2 & ->).
    assert (Hm' : model_at gs' i j m') by (exists name, ms; auto).
    destruct (Hpos _ _ _ Hm') as (m & Hm). exists i, j, name, ms, m. repeat split; auto. apply (Hget i j name ms); assumption. }
  destruct (load_models_ok fits (all_items 0 gs') (save_models (all_items 0 gs) h1) h2) as (h3 & E & Ha & Hb).
  - intros k m' Hin. destruct (Hat _ _ Hin) as (i & j & name & ms & m & H1 & H2 & -> & Hm & Hm' & Hg).
    exists (h1 m). destruct (Hload _ _ _ _ Hm Hm') as (A & B & C). auto.
  - intros k k' m' Hin Hin'.
    destruct (Hat _ _ Hin) as (i & j & name & ms & m & H1 & H2 & -> & Hm & Hm' & Hg).
    destruct (Hat _ _ Hin') as (i2 & j2 & name2 & ms2 & m2 & H12 & H22 & -> & Hm2 & Hm2' & Hg2).
    rewrite Hg, Hg2. f_equal. apply (Hshare i j i2 j2 m m2 m'); assumption.
  - intros k m' sd Hin Hsd. destruct (Hat _ _ Hin) as (i & j & name & ms & m & H1 & H2 & -> & Hm & Hm' & Hg).
    rewrite Hg in Hsd. injection Hsd as <-. apply (Hload i j m m'); assumption.
  - exists h3. split; [exact E|]. split.
    + intros i j m m' Hm Hm'. pose proof Hm' as Hx. destruct Hx as (name & ms & H1 & H2).
      assert (Hin : In (model_key i name j, m') (all_items 0 gs')) by (apply In_all_items; exists i, j, name, ms; auto).
      specialize (Ha _ _ Hin). rewrite (Hget i j name ms m H1 Hm) in Ha. congruence.
    + intros m' H. apply Hb. intros k Hin. apply In_all_items in Hin. destruct Hin as (i & j & name & ms & H1 & H2 & _).
      apply (H i j). exists name, ms. auto.
Qed.
Print Assumptions C39_restore.

(** a model that was not saved is not loaded silently *)
Theorem C39_missing : forall W (fits : W -> W -> bool) k m ms ckpt h,
  dget k ckpt = None -> load_models fits ((k, m) :: ms) ckpt h = (h, Err KeyError).
Proof. intros. cbn. rewrite H. reflexivity. Qed.
Print Assumptions C39_missing.

(** Nor is a checkpoint that does not match loaded silently: at the first model that has no
    entry, has other parameter names than its entry, or a parameter that does not fit, loading stops
    with an error; the models before it are loaded, no other is changed. *)
Theorem C39_mismatch : forall W (fits : W -> W -> bool) before k m ms ckpt h h1,
  load_models fits before ckpt h = (h1, Ok tt) ->
  (dget k ckpt = None -> load_models fits (before ++ (k, m) :: ms) ckpt h = (h1, Err KeyError)) /\
  forall sd name, dget k ckpt = Some sd ->
    match dget name (h1 m), dget name sd with
    | Some old, Some new => fits old new = false
    | None, None => False
    | _, _ => True
    end ->
    load_models fits (before ++ (k, m) :: ms) ckpt h = (h1, Err RuntimeError).
Proof.
  intros W fits before k m ms ckpt h h1. revert h. induction before as [|[k0 m0] before IH]; intros h H; cbn [app load_models] in *.
  - injection H as <-. split; [intros ->; reflexivity|]. intros sd name -> Hn. unfold load_state_dict.
    destruct (forallb (fun k => dmem k sd) (dkeys (h m))) eqn:E1; cbn [andb]; [|reflexivity].
    destruct (forallb (fun k => dmem k (h m)) (dkeys sd)) eqn:E2; cbn [andb]; [|reflexivity].
    destruct (forallb _ (h m)) eqn:E3; [exfalso|reflexivity]. rewrite forallb_forall in E1, E2, E3.
    destruct (dget name (h m)) as [old|] eqn:Eo, (dget name sd) as [new|] eqn:En; try tauto.
    + apply dget_In in Eo. specialize (E3 _ Eo). cbn in E3. rewrite En in E3. congruence.
    + apply dget_In_keys in Eo. specialize (E1 _ Eo). unfold dmem in E1. rewrite En in E1. discriminate.
    + apply dget_In_keys in En. specialize (E2 _ En). unfold dmem in E2. rewrite Eo in E2. discriminate.
  - destruct (dget k0 ckpt) as [sd0|]; [|discriminate]. destruct (load_state_dict fits (h m0) sd0) as [sd'|]; [|discriminate]. apply IH, H.
Qed.
Print Assumptions C39_mismatch.
Example C39_mismatch_case :
  load_models Nat.eqb [("a", 1); ("b", 2); ("c", 3)] [("a", [("w", 5)]); ("b", [("w", 7)]); ("c", [("w", 5)])] (fun _ => [("w", 5)]) =
  load_models Nat.eqb ([("a", 1)] ++ ("b", 2) :: [("c", 3)]) [("a", [("w", 5)]); ("b", [("w", 7)]); ("c", [("w", 5)])] (fun _ => [("w", 5)]) /\
  (exists h1, load_models Nat.eqb [("a", 1)] [("a", [("w", 5)]); ("b", [("w", 7)]); ("c", [("w", 5)])] (fun _ => [("w", 5)]) = (h1, Ok tt) /\
     dget "w" (h1 2) = Some 5) /\
  snd (load_models Nat.eqb [("a", 1); ("b", 2); ("c", 3)] [("a", [("w", 5)]); ("b", [("w", 7)]); ("c", [("w", 5)])] (fun _ => [("w", 5)])) = Err RuntimeError.
Proof. split; [reflexivity|]. split; [eexists; split; reflexivity|reflexivity]. Qed.

(** a case: two groups with underscores and digits in their names; the new models have the ids
    11, 12, 13 *)
Example C39_case :
  let old := MSeq [GSeq [1; 2]; GSeq [3]] in let new := MSeq [GSeq [11; 12]; GSeq [13]] in
  let names := ["a_0"; "1_a"] in
  let h1 := fun m => [("w", m)] in let h2 := fun _ : nat => [("w", 0)] in
  named old names [("a_0", [1; 2]); ("1_a", [3])] /\
  exists d d', models_as_dict old names = Ok d /\ models_as_dict new names = Ok d' /\
    dkeys d = ["0_a_0_0"; "0_a_0_1"; "1_1_a_0"] /\
    let '(h3, r) := load_models (fun _ _ => true) d' (save_models d h1) h2 in
    r = Ok tt /\ map h3 [11; 12; 13; 14] = [[("w", 1)]; [("w", 2)]; [("w", 3)]; [("w", 0)]].
Proof.
  split.
  - apply (named_seq ["a_0"; "1_a"] [GSeq [1; 2]; GSeq [3]] [[1; 2]; [3]]); [reflexivity|repeat constructor].
  - do 2 eexists. repeat split.
Qed.
