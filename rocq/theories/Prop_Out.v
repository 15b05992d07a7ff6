(** Properties C36-C38: PropertyDict, Out, GlobalStore. *)
From Verif Require Import Thm_Out.

(** ** C36 PropertyDict attributes are items *)

(** refuted: what is written under the name of a dict method is not what is read back *)
Theorem C36_attributes_refuted : exists (ops : list (pd_op nat)),
  snd (pd_run ops []) <> map (rmap (option_map Item)) (pd_spec_run ops (fun _ => None)).
Proof. exists [SetAttr "items" 7; GetAttr "items"]. discriminate. Qed.
Print Assumptions C36_attributes_refuted.
(** ... and a name that was never written can be read *)
Theorem C36_missing_refuted : exists n, forall V, getattr n (@nil (string * V)) <> Err AttributeError.
Proof. exists "copy". intros V. discriminate. Qed.
Print Assumptions C36_missing_refuted.
(** over any history of attribute and item operations on names that are not attributes of the
    class, a PropertyDict behaves as a finite map in which attributes are items; missing
    attributes raise AttributeError, missing items KeyError.  Missing from the full property: the
    names of methods of dict, for which it is false (above) *)
Theorem C36_attributes_partial : forall V (ops : list (pd_op V)),
  (forall o, In o ops -> ~ In (op_name o) class_attrs) ->
  snd (pd_run ops []) = map (rmap (option_map Item)) (pd_spec_run ops (fun _ => None)).
Proof. intros V ops H. apply pd_run_spec; [|exact H]. split; [constructor|reflexivity]. Qed.
Print Assumptions C36_attributes_partial.
Example C36_history :
  let ops := [SetAttr "trace" 1; SetItem "ix" 2; GetItem "trace"; GetAttr "ix"; DelAttr "ix"; GetAttr "ix"; DelItem "ix"] in
  (forall o, In o ops -> ~ In (op_name o) class_attrs) /\
  pd_spec_run ops (fun _ => None) =
    [Ok None; Ok None; Ok (Some 1); Ok (Some 2); Ok None; Err AttributeError; Err KeyError].
Proof.
  split; [|reflexivity]. intros o Ho. apply mem_not_In. cbn [In] in Ho.
  repeat (destruct Ho as [<-|Ho]; [reflexivity|]). destruct Ho.
Qed.

(** ** C37 Out unpacks to trace, weight, output, extras *)
Theorem C37_unpack : forall V (t w o : V) extras, wf_dict extras ->
  ~ In "trace" (dkeys extras) -> ~ In "log_weight" (dkeys extras) -> ~ In "output" (dkeys extras) ->
  iter_out (make_out t w o extras) =
    Ok (Item t, Item w, Item o,
        flat_map (fun n => match dget n extras with Some v => [(n, Item v)] | None => [] end)
                 ["ix"; "program"; "kernel"; "proposal"]).
Proof.
  intros V t w o extras Hwf H1 H2 H3. rewrite iter_out_spec by exact Hwf.
  apply dget_None in H1, H2, H3. rewrite H1, H2, H3. reflexivity.
Qed.
Print Assumptions C37_unpack.
(** in general the extras win *)
Theorem C37_unpack_general : forall V (t w o : V) extras, wf_dict extras ->
  iter_out (make_out t w o extras) =
    Ok (Item (match dget "trace" extras with Some v => v | None => t end),
        Item (match dget "log_weight" extras with Some v => v | None => w end),
        Item (match dget "output" extras with Some v => v | None => o end),
        flat_map (fun n => match dget n extras with Some v => [(n, Item v)] | None => [] end)
                 ["ix"; "program"; "kernel"; "proposal"]).
Proof. exact @iter_out_spec. Qed.
Print Assumptions C37_unpack_general.
(** the items are the extras and, unless overridden, the three fields; in this order *)
Theorem C37_items : forall V (t w o : V) extras, wf_dict extras ->
  (forall k v, dget k extras = Some v -> dget k (make_out t w o extras) = Some v) /\
  dkeys (make_out t w o extras) =
    ["trace"; "log_weight"; "output"] ++ filter (fun k => negb (mem k ["trace"; "log_weight"; "output"])) (dkeys extras).
Proof.
  intros V t w o extras Hwf. split; [|apply make_out_keys, Hwf].
  intros k v H. rewrite make_out_get, H by exact Hwf. reflexivity.
Qed.
Print Assumptions C37_items.
Example C37_case : let extras := [("type", 4); ("kernel", 5); ("ix", 6)] in
  wf_dict extras /\ iter_out (make_out 1 2 3 extras) = Ok (Item 1, Item 2, Item 3, [("ix", Item 6); ("kernel", Item 5)]).
Proof. split; [repeat constructor; cbn; intuition discriminate|reflexivity]. Qed.

(** ** C38 Global store hooks *)
Section C38.
  Context {V TR : Type}.
  Notation gstore := (@gstore V TR).

  (** with default hooks, a dict over any history *)
  Theorem C38_default : forall ops, snd (gs_run ops (@new_store V TR)) = gs_spec_run ops (fun _ => None).
  Proof. intros ops. apply gs_run_default; [reflexivity|]. split; [constructor|reflexivity]. Qed.
  Print Assumptions C38_default.

  (** item read: the pre-get hook runs once, before; it sees the store as it was.  If it raises,
      the read raises and nothing else happens.  Otherwise the item is looked up; if it is
      there, the post-get hook runs once, after, and a result that is not None replaces the
      value. *)
  Theorem C38_get : forall k (s s' : gstore) r, gs_get k s = (s', r) ->
    hks s' = hks s /\
    let pre := h_pre_get (hks s) (items s) k in
    (forall e, snd pre = Err e ->
       r = Err e /\ items s' = fst pre /\ log s' = log s ++ [EvPreGet k (items s)]) /\
    (forall o, snd pre = Ok o -> dget k (fst pre) = None ->
       r = Err KeyError /\ items s' = fst pre /\ log s' = log s ++ [EvPreGet k (items s)]) /\
    (forall o v, snd pre = Ok o -> dget k (fst pre) = Some v ->
       let post := h_post_get (hks s) (fst pre) k v in
       log s' = log s ++ [EvPreGet k (items s); EvPostGet k v (fst pre)] /\ items s' = fst post /\
       r = match snd post with Err e => Err e | Ok None => Ok v | Ok (Some x) => Ok x end).
  Proof.
    intros k s s' r H. unfold gs_get in H. cbn zeta. cbn [after_hook items log hks] in H.
    destruct (h_pre_get (hks s) (items s) k) as [d0 [o0|e0]]; cbn [fst snd] in *.
    - destruct (dget k d0) as [v|] eqn:Ek.
      + destruct (h_post_get (hks s) d0 k v) as [d1 [[x|]|e1]] eqn:Ep; cbn [fst snd] in *; injection H as <- <-; cbn [after_hook fst snd hks log items];
          (split; [reflexivity|]; split; [discriminate|]; split; [discriminate|]; intros o v' _ [= <-]; rewrite Ep; cbn [fst snd after_hook hks log items];
           rewrite <- ?app_assoc; repeat split).
      + injection H as <- <-. split; [reflexivity|]. split; [discriminate|]. split; [intros; repeat split|discriminate].
    - injection H as <- <-. split; [reflexivity|]. split; [intros e [= <-]; repeat split|]. split; discriminate.
  Qed.
  Print Assumptions C38_get.

  (** item write: the pre-set hook runs once, before the write.  If it raises, nothing is
      written and the post-set hook does not run: the store keeps the items the hook left (the
      same items, unless the hook itself changed them).  Otherwise the item is written and the
      post-set hook runs once, and sees the new item. *)
  Theorem C38_set : forall k v (s s' : gstore) r, gs_set k v s = (s', r) ->
    hks s' = hks s /\
    let pre := h_pre_set (hks s) (items s) k v in
    (forall e, snd pre = Err e ->
       r = Err e /\ items s' = fst pre /\ log s' = log s ++ [EvPreSet k v (items s)]) /\
    (forall o, snd pre = Ok o ->
       let written := dset k v (fst pre) in
       let post := h_post_set (hks s) written k v in
       dget k written = Some v /\
       log s' = log s ++ [EvPreSet k v (items s); EvPostSet k v written] /\
       items s' = fst post /\ r = match snd post with Err e => Err e | Ok _ => Ok tt end).
  Proof.
    intros k v s s' r H. unfold gs_set in H. cbn zeta. cbn [after_hook items log hks] in H.
    destruct (h_pre_set (hks s) (items s) k v) as [d0 [o0|e0]]; cbn [fst snd] in *.
    - destruct (h_post_set (hks s) (dset k v d0) k v) as [d1 [x|e1]]; cbn [fst snd] in *; injection H as <- <-; cbn [after_hook fst snd hks log items];
        (split; [reflexivity|]; split; [discriminate|]; intros o _; rewrite dget_dset, String.eqb_refl, <- ?app_assoc; repeat split).
    - injection H as <- <-. split; [reflexivity|]. split; [intros e [= <-]; repeat split|discriminate].
  Qed.
  Print Assumptions C38_set.

  (** the other access methods of dict bypass the hooks *)
  Theorem C38_bypass : forall (s : gstore) o,
    match o with OpDel _ | OpGetMethod _ | OpUpdate _ => True | _ => False end ->
    log (fst (gs_step o s)) = log s /\ hks (fst (gs_step o s)) = hks s.
  Proof.
    intros s [k|k v|k|k|d|a b] H; try destruct H; cbn; [unfold gs_del; destruct (dmem k (items s))| |]; split; reflexivity.
  Qed.
  Print Assumptions C38_bypass.

  (** hook names: exactly five are accepted; installing a hook changes no item *)
  Theorem C38_set_hook : forall ty f (s : gstore),
    (In ty ["pre_get"; "post_get"; "pre_set"; "post_set"; "resample_update"] ->
       snd (set_hook ty f s) = Ok tt /\ items (fst (set_hook ty f s)) = items s) /\
    (~ In ty ["pre_get"; "post_get"; "pre_set"; "post_set"; "resample_update"] ->
       set_hook ty f s = (s, Err AssertionError)).
  Proof.
    intros ty f s. unfold set_hook.
    destruct (String.eqb_spec ty "pre_get") as [->|H1]; [split; [split; reflexivity|cbn; tauto]|].
    destruct (String.eqb_spec ty "post_get") as [->|H2']; [split; [split; reflexivity|cbn; tauto]|].
    destruct (String.eqb_spec ty "pre_set") as [->|H3']; [split; [split; reflexivity|cbn; tauto]|].
    destruct (String.eqb_spec ty "post_set") as [->|H4]; [split; [split; reflexivity|cbn; tauto]|].
    destruct (String.eqb_spec ty "resample_update") as [->|H5]; [split; [split; reflexivity|cbn; tauto]|].
    split; [|reflexivity]. cbn. intros H. exfalso. intuition congruence.
  Qed.
  Print Assumptions C38_set_hook.
  (** ... and only the named hook *)
  Theorem C38_installed : forall (s : gstore) f2 f3 fr,
    hks (fst (set_hook "pre_get" (H2 f2) s)) =
      mkHooks f2 (h_post_get (hks s)) (h_pre_set (hks s)) (h_post_set (hks s)) (h_resample_update (hks s)) /\
    hks (fst (set_hook "post_get" (H3 f3) s)) =
      mkHooks (h_pre_get (hks s)) f3 (h_pre_set (hks s)) (h_post_set (hks s)) (h_resample_update (hks s)) /\
    hks (fst (set_hook "pre_set" (H3 f3) s)) =
      mkHooks (h_pre_get (hks s)) (h_post_get (hks s)) f3 (h_post_set (hks s)) (h_resample_update (hks s)) /\
    hks (fst (set_hook "post_set" (H3 f3) s)) =
      mkHooks (h_pre_get (hks s)) (h_post_get (hks s)) (h_pre_set (hks s)) f3 (h_resample_update (hks s)) /\
    hks (fst (set_hook "resample_update" (HR fr) s)) =
      mkHooks (h_pre_get (hks s)) (h_post_get (hks s)) (h_pre_set (hks s)) (h_post_set (hks s)) fr.
  Proof. intros. repeat split. Qed.
  Print Assumptions C38_installed.
  (** resample_update runs its hook once, and leaves the items the hook leaves *)
  Theorem C38_resample_update : forall tr tr2 (s s' : gstore) r, gs_resample_update tr tr2 s = (s', r) ->
    let h := h_resample_update (hks s) (items s) tr tr2 in
    hks s' = hks s /\ items s' = fst h /\ log s' = log s ++ [EvResample tr tr2 (items s)] /\
    r = match snd h with Err e => Err e | Ok _ => Ok tt end.
  Proof.
    intros tr tr2 s s' r H. unfold gs_resample_update in H. cbn zeta.
    destruct (h_resample_update (hks s) (items s) tr tr2) as [d [o|e]]; cbn [fst snd] in *; injection H as <- <-; repeat split.
  Qed.
  Print Assumptions C38_resample_update.
End C38.

(** a store with a rejecting pre-set hook and a doubling post-get hook *)
Example C38_case :
  let s := fst (set_hook "pre_set" (H3 (fun d k v => (d, if Nat.eqb v 0 then Err ValueError else Ok None)))
           (fst (set_hook "post_get" (H3 (fun d k v => (d, Ok (Some (v + v))))) (@new_store nat nat)))) in
  let s1 := fst (gs_set "a" 3 s) in
  snd (gs_set "a" 3 s) = Ok tt /\ snd (gs_get "a" s1) = Ok 6 /\
  snd (gs_set "a" 0 s1) = Err ValueError /\ items (fst (gs_set "a" 0 s1)) = [("a", 3)].
Proof. repeat split. Qed.
