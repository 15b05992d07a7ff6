(** C83: sequencing with Compose is associative, and a program without variables is its unit. *)
From Verif Require Import Spec RunEq Thm_Sweeps Instances Prop_Combinators.
Close Scope Z_scope.
Open Scope nat_scope.

(** Two results a caller cannot tell apart (except by the debug items): same trace, log-weight, output,
    type, index and loss. *)
Record same_result {L : lib} (a b : out L) : Prop := mkSame {
  sr_trace : out_trace a = out_trace b;
  sr_weight : out_lw a = out_lw b;
  sr_output : out_output a = out_output b;
  sr_type : out_type a = out_type b;
  sr_ix : out_ix a = out_ix b;
  sr_loss : out_loss a = out_loss b }.

Section Algebra.
  Context {L : lib}.
  Notation pyval := (pyval (T L)).

  Lemma path_bind {A B} (t : stree L A) (f : A -> stree L B) ds1 a ds2 b : path t ds1 a -> path (f a) ds2 b -> path (tbind t f) (ds1 ++ ds2) b.
  Proof. induction 1 as [a|d k v ds a H IH]; intros Hf; cbn [tbind app]; [exact Hf|]. constructor. apply IH, Hf. Qed.
  Lemma path_split {A B} (t : stree L A) (f : A -> stree L B) : forall ds b, path (tbind t f) ds b ->
    exists ds1 a ds2, ds = ds1 ++ ds2 /\ path t ds1 a /\ path (f a) ds2 b.
  Proof.
    induction t as [a|d k IH]; intros ds b H; cbn [tbind] in H; [exists [], a, ds; repeat split; [constructor|exact H]|].
    inversion H; subst. match goal with H : path (tbind _ _) _ _ |- _ => destruct (IH _ _ _ H) as (ds1 & a & ds2 & -> & H1 & H2) end.
    eexists (_ :: ds1), a, ds2. repeat split; [constructor; exact H1|exact H2].
  Qed.
  Lemma path_returns {A} (m : M L A) s ds a s' : path (m s) ds (Ok a, s') -> returns m s a s'.
  Proof. intros H. apply path_outcome in H. exact H. Qed.

  Lemma compose_path oid q2 q1 o c (kws : dict pyval) s ds r s' : wf_dict kws ->
    (path (run (L := L) (ICompose oid q2 q1 o) c kws s) ds (Ok r, s') <->
     clash ["self"; "c"; "fn"] kws = false /\
     exists ds1 o1 s1 ds2 o2, ds = ds1 ++ ds2 /\ path (run q1 c (sub_kwargs (in_ix o) kws) s) ds1 (Ok o1, s1) /\
       path (run q2 (out_output o1) (sub_kwargs (in_ix o) kws) s1) ds2 (Ok o2, s') /\ compose_tail o kws o1 o2 = Ok r).
  Proof.
    intros Hk. split.
    - intros H. assert (Hc : clash ["self"; "c"; "fn"] kws = false).
      { pose proof (path_returns _ _ _ _ _ H) as Hr. apply run_compose_returns in Hr; [|exact Hk].
        destruct Hr as (o1 & s1 & o2 & tr & l & H1 & H2 & _). clear - H1 H2. unfold clash in *.
        induction kws as [|[k v] kws IH]; [reflexivity|]. cbn [existsb fst] in *. apply orb_false_iff in H1, H2. destruct H1 as [A1 A2], H2 as [B1 B2].
        rewrite IH by assumption. rewrite orb_false_r. cbn [mem existsb] in *. destruct (String.eqb k "self"), (String.eqb k "c"), (String.eqb k "fn"); try discriminate; reflexivity. }
      split; [exact Hc|]. eapply teq_path in H; [|apply run_compose_eq; assumption].
      apply path_split in H. destruct H as (ds1 & [[o1|e] s1] & ds2' & -> & H1 & H); cbn [after fst snd] in H; [|inversion H].
      unfold after in H. cbn [fst snd] in H. apply path_split in H. destruct H as (ds2 & [[o2|e] s2] & ds3 & -> & H2 & H); cbn [fst snd] in H; [|inversion H].
      inversion H; subst. rewrite app_nil_r. exists ds1, o1, s1, ds2, o2. auto.
    - intros (Hc & ds1 & o1 & s1 & ds2 & o2 & -> & H1 & H2 & H). eapply teq_path; [apply teq_sym, run_compose_eq; assumption|].
      eapply path_bind; [exact H1|]. unfold after. cbn [fst snd]. rewrite <- (app_nil_r ds2). eapply path_bind; [exact H2|]. cbn [fst snd]. rewrite H. constructor.
  Qed.

  (** what Compose computes from the results of its two programs, with the default loss function *)
  Lemma tail_fields o (kws : dict pyval) o1 o2 r : in_loss o = default_loss -> wf_dict (out_trace o1) -> wf_dict (out_trace o2) ->
    compose_tail o kws o1 o2 = Ok r ->
    (forall k, In k (dkeys (out_trace o2)) -> ~ In k (dkeys (out_trace o1))) /\
    out_trace r = out_trace o2 ++ out_trace o1 /\ out_lw r = tadd L (out_lw o1) (out_lw o2) /\ out_output r = out_output o2 /\
    out_type r = TyCompose /\ out_ix r = Some (resolve_ix (in_ix o) (k_ix kws)) /\
    out_loss r = Some (match out_loss o1 with Some l => l | None => match in_loss0 o with Some l => l | None => tzero L end end).
  Proof.
    intros Hl Hw1 Hw2 H. unfold compose_tail in H. destruct (copytraces _ _ _) as [tr|e] eqn:Et; cbn [rbind] in H; [|discriminate].
    destruct (sinter _ _) eqn:Ei; [|discriminate]. pose proof (proj1 (sinter_nil _ _) Ei) as Hd.
    rewrite copytraces_two_disjoint in Et by assumption. injection Et as <-.
    unfold add_loss in H. rewrite Hl in H. cbn [default_loss rmap rbind] in H. injection H as <-. split; [exact Hd|].
    unfold add_subs. destruct (_ || _); repeat split; reflexivity.
  Qed.
  Lemma tail_exists o (kws : dict pyval) o1 o2 : in_loss o = default_loss -> wf_dict (out_trace o1) -> wf_dict (out_trace o2) ->
    (forall k, In k (dkeys (out_trace o2)) -> ~ In k (dkeys (out_trace o1))) -> exists r, compose_tail o kws o1 o2 = Ok r.
  Proof. intros Hl H1 H2 Hd. destruct (compose_tail_ok o kws o1 o2 Hl H1 H2 Hd) as (r & Hr & _). eauto. Qed.
  Lemma sub_again ix (kws : dict pyval) : sub_kwargs VNone (sub_kwargs ix kws) = sub_kwargs ix kws.
  Proof.
    assert (H : forall d : dict pyval, filter (fun kv => negb (mem (fst kv) ["sample_dims"; "batch_dim"; "_debug"; "reparameterized"; "ix"]))
      (filter (fun kv => negb (mem (fst kv) ["sample_dims"; "batch_dim"; "_debug"; "reparameterized"; "ix"])) d) =
      filter (fun kv => negb (mem (fst kv) ["sample_dims"; "batch_dim"; "_debug"; "reparameterized"; "ix"])) d).
    2:{ unfold sub_kwargs at 1. change (kwarg "_debug" (VBool false) (sub_kwargs ix kws)) with (kwarg (L := L) "_debug" (VBool false) kws).
        cbn [is_none]. change (kwarg "ix" VNone (sub_kwargs ix kws)) with (if is_none ix then kwarg (L := L) "ix" VNone kws else ix).
        change (kwarg "sample_dims" VNone (sub_kwargs ix kws)) with (kwarg (L := L) "sample_dims" VNone kws).
        change (kwarg "batch_dim" VNone (sub_kwargs ix kws)) with (kwarg (L := L) "batch_dim" VNone kws).
        change (kwarg "reparameterized" (VBool true) (sub_kwargs ix kws)) with (kwarg (L := L) "reparameterized" (VBool true) kws).
        unfold sub_kwargs. f_equal. rewrite filter_app. rewrite H. reflexivity. }
    clear. intros kws. induction kws as [|[k v] kws IH]; [reflexivity|]. cbn [filter fst]. destruct (negb _) eqn:E; [|exact IH]. cbn [filter fst]. rewrite E. f_equal. exact IH.
  Qed.
  Lemma clash_again ix (kws : dict pyval) : clash ["self"; "c"; "fn"] kws = false -> clash ["self"; "c"; "fn"] (sub_kwargs ix kws) = false.
  Proof.
    intros H. unfold clash in *. unfold sub_kwargs. rewrite existsb_app.
    assert (E : forall d : dict pyval, existsb (fun kv => mem (fst kv) ["self"; "c"; "fn"]) d = false ->
      existsb (fun kv => mem (fst kv) ["self"; "c"; "fn"]) (filter (fun kv => negb (mem (fst kv) ["sample_dims"; "batch_dim"; "_debug"; "reparameterized"; "ix"])) d) = false).
    { clear. induction d as [|[k v] d IH]; intros H; [reflexivity|]. apply orb_false_iff in H. destruct H as [H1 H2].
      cbn [filter fst]. destruct (negb _); [|exact (IH H2)]. apply orb_false_iff. split; [exact H1|exact (IH H2)]. }
    rewrite (E _ H). reflexivity.
  Qed.
  Lemma keys_app (a b : trace L) k : In k (dkeys (a ++ b)) <-> In k (dkeys a) \/ In k (dkeys b).
  Proof. unfold dkeys. rewrite map_app, in_app_iff. reflexivity. Qed.

End Algebra.

Section Associative.
  Context {L : lib} (HL : lib_laws L).
  Notation pyval := (pyval (T L)).
  Lemma assoc_right i j i' j' (q3 q2 q1 : inf L) o oin c (kws : dict pyval) s ds r s' :
    wf_dict kws -> wf_st s -> in_loss o = default_loss -> in_loss0 o = None -> in_loss oin = default_loss -> in_loss0 oin = None -> in_ix oin = VNone ->
    path (run (ICompose i q3 (ICompose j q2 q1 oin) o) c kws s) ds (Ok r, s') ->
    exists r', path (run (ICompose i' (ICompose j' q3 q2 oin) q1 o) c kws s) ds (Ok r', s') /\ same_result r r'.
  Proof.
    intros Hk Hs Hl Hl0 Hm Hm0 Hix H. apply compose_path in H; [|exact Hk]. destruct H as (Hc & dsa & oa & sa & ds3 & o3 & -> & Ha & H3 & Ht).
    set (kw := sub_kwargs (in_ix o) kws) in *. assert (Hkw : wf_dict kw) by (apply wf_sub_kwargs, Hk).
    assert (Ekw : sub_kwargs (in_ix oin) kw = kw) by (rewrite Hix; apply sub_again).
    apply compose_path in Ha; [|exact Hkw]. destruct Ha as (_ & ds1 & o1 & s1 & ds2 & o2 & -> & H1 & H2 & Hta).
    rewrite Ekw in H1, H2.
    destruct (run_returns_wf _ _ _ _ _ _ Hkw Hs (path_returns _ _ _ _ _ H1)) as [W1 Hs1].
    destruct (run_returns_wf _ _ _ _ _ _ Hkw Hs1 (path_returns _ _ _ _ _ H2)) as [W2 Hs2].
    destruct (run_returns_wf _ _ _ _ _ _ Hkw Hs2 (path_returns _ _ _ _ _ H3)) as [W3 _].
    destruct (tail_fields _ _ _ _ _ Hm W1 W2 Hta) as (Da & Ta & La & Oa & _ & _ & Pa).
    assert (Wa : wf_dict (out_trace oa)).
    { rewrite Ta. apply (wf_app L); assumption. }
    destruct (tail_fields _ _ _ _ _ Hl Wa W3 Ht) as (D & Tr & Lr & Or & Yr & Ir & Pr).
    assert (D32 : forall k, In k (dkeys (out_trace o3)) -> ~ In k (dkeys (out_trace o2))).
    { intros k K3 K2. apply (D k K3). rewrite Ta, keys_app. auto. }
    destruct (tail_exists oin kw o2 o3 Hm W2 W3 D32) as (ob & Hb).
    destruct (tail_fields _ _ _ _ _ Hm W2 W3 Hb) as (_ & Tb & Lb & Ob & _ & _ & _).
    assert (Wb : wf_dict (out_trace ob)) by (rewrite Tb; apply (wf_app L); assumption).
    assert (Db : forall k, In k (dkeys (out_trace ob)) -> ~ In k (dkeys (out_trace o1))).
    { intros k Kb K1. rewrite Tb, keys_app in Kb. destruct Kb as [K3|K2]; [apply (D k K3); rewrite Ta, keys_app; auto|exact (Da k K2 K1)]. }
    destruct (tail_exists o kws o1 ob Hl W1 Wb Db) as (r' & Hr').
    destruct (tail_fields _ _ _ _ _ Hl W1 Wb Hr') as (_ & Tr' & Lr' & Or' & Yr' & Ir' & Pr').
    exists r'. split.
    - apply compose_path; [exact Hk|]. split; [exact Hc|]. exists ds1, o1, s1, (ds2 ++ ds3), ob. split; [symmetry; apply app_assoc|]. split; [exact H1|]. split; [|exact Hr'].
      apply compose_path; [exact Hkw|]. split; [apply clash_again, Hc|]. exists ds2, o2, sa, ds3, o3. fold kw. rewrite Ekw.
      rewrite Oa in H3. auto.
    - constructor.
      + rewrite Tr, Ta, Tr', Tb. apply app_assoc.
      + rewrite Lr, La, Lr', Lb. symmetry. apply (tadd_assoc L HL).
      + congruence.
      + congruence.
      + congruence.
      + rewrite Pr, Pa, Pr'. f_equal. destruct (out_loss o1); [reflexivity|]. rewrite Hm0, Hl0. reflexivity.
  Qed.
  Lemma assoc_left i j i' j' (q3 q2 q1 : inf L) o oin c (kws : dict pyval) s ds r s' :
    wf_dict kws -> wf_st s -> in_loss o = default_loss -> in_loss0 o = None -> in_loss oin = default_loss -> in_loss0 oin = None -> in_ix oin = VNone ->
    path (run (ICompose i' (ICompose j' q3 q2 oin) q1 o) c kws s) ds (Ok r, s') ->
    exists r', path (run (ICompose i q3 (ICompose j q2 q1 oin) o) c kws s) ds (Ok r', s') /\ same_result r r'.
  Proof.
    intros Hk Hs Hl Hl0 Hm Hm0 Hix H. apply compose_path in H; [|exact Hk]. destruct H as (Hc & ds1 & o1 & s1 & dsb & ob & -> & H1 & Hb & Ht).
    set (kw := sub_kwargs (in_ix o) kws) in *. assert (Hkw : wf_dict kw) by (apply wf_sub_kwargs, Hk).
    assert (Ekw : sub_kwargs (in_ix oin) kw = kw) by (rewrite Hix; apply sub_again).
    apply compose_path in Hb; [|exact Hkw]. destruct Hb as (_ & ds2 & o2 & s2 & ds3 & o3 & -> & H2 & H3 & Htb).
    rewrite Ekw in H2, H3.
    destruct (run_returns_wf _ _ _ _ _ _ Hkw Hs (path_returns _ _ _ _ _ H1)) as [W1 Hs1].
    destruct (run_returns_wf _ _ _ _ _ _ Hkw Hs1 (path_returns _ _ _ _ _ H2)) as [W2 Hs2].
    destruct (run_returns_wf _ _ _ _ _ _ Hkw Hs2 (path_returns _ _ _ _ _ H3)) as [W3 _].
    destruct (tail_fields _ _ _ _ _ Hm W2 W3 Htb) as (D32 & Tb & Lb & Ob & _ & _ & Pb).
    assert (Wb : wf_dict (out_trace ob)) by (rewrite Tb; apply (wf_app L); assumption).
    destruct (tail_fields _ _ _ _ _ Hl W1 Wb Ht) as (D & Tr & Lr & Or & Yr & Ir & Pr).
    assert (D21 : forall k, In k (dkeys (out_trace o2)) -> ~ In k (dkeys (out_trace o1))).
    { intros k K2 K1. apply (D k); [|exact K1]. rewrite Tb, keys_app. auto. }
    destruct (tail_exists oin kw o1 o2 Hm W1 W2 D21) as (oa & Ha).
    destruct (tail_fields _ _ _ _ _ Hm W1 W2 Ha) as (_ & Ta & La & Oa & _ & _ & Pa).
    assert (Wa : wf_dict (out_trace oa)) by (rewrite Ta; apply (wf_app L); assumption).
    assert (Da : forall k, In k (dkeys (out_trace o3)) -> ~ In k (dkeys (out_trace oa))).
    { intros k K3 Ka. rewrite Ta, keys_app in Ka. destruct Ka as [K2|K1]; [exact (D32 k K3 K2)|]. apply (D k); [|exact K1]. rewrite Tb, keys_app. auto. }
    destruct (tail_exists o kws oa o3 Hl Wa W3 Da) as (r' & Hr').
    destruct (tail_fields _ _ _ _ _ Hl Wa W3 Hr') as (_ & Tr' & Lr' & Or' & Yr' & Ir' & Pr').
    exists r'. split.
    - apply compose_path; [exact Hk|]. split; [exact Hc|]. exists (ds1 ++ ds2), oa, s2, ds3, o3. split; [apply app_assoc|]. split; [|split; [rewrite Oa; exact H3|exact Hr']].
      apply compose_path; [exact Hkw|]. split; [apply clash_again, Hc|]. exists ds1, o1, s1, ds2, o2. fold kw. rewrite Ekw. auto.
    - constructor.
      + rewrite Tr, Tb, Tr', Ta. symmetry. apply app_assoc.
      + rewrite Lr, Lb, Lr', La. apply (tadd_assoc L HL).
      + congruence.
      + congruence.
      + congruence.
      + rewrite Pr, Pr', Pa. f_equal. destruct (out_loss o1); [reflexivity|]. rewrite Hm0, Hl0. reflexivity.
  Qed.
End Associative.

(** A Compose with the default arguments (and with or without _debug). *)
Definition plain_opts {L : lib} (o : infopts L) : Prop := in_loss o = default_loss /\ in_loss0 o = None /\ in_ix o = VNone.

(** [t] composes the programs [l], the first one of [l] running first, with its Composes nested in some way. *)
Inductive composes {L : lib} : list (inf L) -> inf L -> Prop :=
| composes_one q : composes [q] q
| composes_two i l1 l2 q2 q1 o : composes l1 q1 -> composes l2 q2 -> plain_opts o -> composes (l1 ++ l2) (ICompose i q2 q1 o).

Section Bracketing.
  Context {L : lib} (HL : lib_laws L).
  Notation pyval := (pyval (T L)). Notation out := (out L).

  (** the programs run one after the other, each on the output of the one before *)
  Inductive in_turn (kw : dict pyval) : list (inf L) -> pyval -> st L -> list (draw_kind L * T L) -> list out -> st L -> Prop :=
  | turn_one q c s ds o s' : path (run q c kw s) ds (Ok o, s') -> in_turn kw [q] c s ds [o] s'
  | turn_next q l c s ds1 o s1 ds2 os s' : path (run q c kw s) ds1 (Ok o, s1) -> in_turn kw l (out_output o) s1 ds2 os s' ->
      in_turn kw (q :: l) c s (ds1 ++ ds2) (o :: os) s'.
  Definition final (d : pyval) (os : list out) : pyval := last (map out_output os) d.
  Definition joined (os : list out) : trace L := concat (rev (map out_trace os)).
  Definition weights (os : list out) : T L := fold_right (tadd L) (tzero L) (map out_lw os).
  Fixpoint apart (os : list out) : Prop :=
    match os with [] => True | o :: os' => (forall o2 k, In o2 os' -> In k (dkeys (out_trace o2)) -> ~ In k (dkeys (out_trace o))) /\ apart os' end.
  Definition first_loss (os : list out) : T L :=
    match os with o :: _ => match out_loss o with Some l => l | None => tzero L end | [] => tzero L end.
  Record summed (kw : dict pyval) (os : list out) (r : out) : Prop := mkSummed {
    sm_trace : out_trace r = joined os; sm_weight : out_lw r = weights os; sm_output : forall d, final d os = out_output r;
    sm_many : 2 <= length os -> out_type r = TyCompose /\ out_ix r = Some (k_ix kw) /\ out_loss r = Some (first_loss os);
    sm_one : forall o, os = [o] -> r = o }.

  Lemma turn_app kw l1 : forall c s ds1 os1 s1, in_turn kw l1 c s ds1 os1 s1 -> forall l2 ds2 os2 s2, (forall d, in_turn kw l2 (final d os1) s1 ds2 os2 s2) ->
    in_turn kw (l1 ++ l2) c s (ds1 ++ ds2) (os1 ++ os2) s2.
  Proof.
    induction 1 as [q c s ds o s' H|q l c s ds1 o s1 ds2 os s' H H1 IH]; intros l2 ds3 os2 s2 H2.
    - cbn [app]. econstructor; [exact H|]. exact (H2 VNone).
    - cbn [app]. rewrite <- app_assoc. econstructor; [exact H|]. apply IH. intros d.
      assert (E : final d os = final d (o :: os)) by (destruct os; [inversion H1|reflexivity]). rewrite E. apply H2.
  Qed.
  Lemma turn_length kw l c s ds os s' : in_turn kw l c s ds os s' -> length os = length l /\ l <> [].
  Proof. induction 1; cbn; [split; congruence|]. destruct IHin_turn as [-> _]. split; congruence. Qed.
  Lemma turn_split kw l1 : l1 <> [] -> forall l2 c s ds os s', l2 <> [] -> in_turn kw (l1 ++ l2) c s ds os s' ->
    exists ds1 os1 s1 ds2 os2, ds = ds1 ++ ds2 /\ os = os1 ++ os2 /\ in_turn kw l1 c s ds1 os1 s1 /\ forall d, in_turn kw l2 (final d os1) s1 ds2 os2 s'.
  Proof.
    induction l1 as [|q l1 IH]; [congruence|]. intros _ l2 c s ds os s' Hl2 H. destruct l1 as [|q' l1].
    - cbn [app] in H. inversion H as [? ? ? ? ? ? Hp|? ? ? ? d1 ? ? d2 ? ? Hp Hr]; subst; [congruence|].
      exists d1, [o], s1, d2, os0. repeat split; [constructor; exact Hp|]. intros d. exact Hr.
    - cbn [app] in H. inversion H as [|? ? ? ? d1 ? ? d2 ? ? Hp Hr]; subst.
      destruct (IH ltac:(discriminate) l2 _ _ _ _ _ Hl2 Hr) as (e1 & os1 & t1 & e2 & os2 & -> & -> & A & B).
      exists (d1 ++ e1), (o :: os1), t1, e2, os2. repeat split; [apply app_assoc|econstructor; eassumption|].
      intros d. assert (E : final d (o :: os1) = final d os1) by (destruct os1; [inversion A|reflexivity]). rewrite E. apply B.
  Qed.
  Lemma weights_app a b : weights (a ++ b) = tadd L (weights a) (weights b).
  Proof.
    unfold weights. rewrite map_app. induction (map out_lw a) as [|x l IH]; cbn [app fold_right]; [symmetry; apply (tadd_zero L HL)|].
    rewrite IH. apply (tadd_assoc L HL).
  Qed.
  Lemma joined_app a b : joined (a ++ b) = joined b ++ joined a.
  Proof. unfold joined. rewrite map_app, rev_app_distr, concat_app. reflexivity. Qed.
  Lemma joined_keys os k : In k (dkeys (joined os)) <-> exists o, In o os /\ In k (dkeys (out_trace o)).
  Proof.
    unfold joined, dkeys. rewrite in_map_iff. split.
    - intros (kv & <- & H). apply in_concat in H. destruct H as (tr & H1 & H2). apply in_rev, in_map_iff in H1. destruct H1 as (o & <- & Ho).
      exists o. split; [exact Ho|apply in_map, H2].
    - intros (o & Ho & H). apply in_map_iff in H. destruct H as (kv & <- & H). exists kv. split; [reflexivity|]. apply in_concat. exists (out_trace o).
      split; [|exact H]. apply in_rev. rewrite rev_involutive. apply in_map, Ho.
  Qed.
  Lemma apart_app a b : apart (a ++ b) <-> apart a /\ apart b /\ (forall k, In k (dkeys (joined b)) -> ~ In k (dkeys (joined a))).
  Proof.
    induction a as [|o a IH]; cbn [app apart].
    - split; [intros H|tauto]. split; [exact I|]. split; [exact H|]. intros k _ Hk. apply joined_keys in Hk. destruct Hk as (o & [] & _).
    - rewrite IH. split.
      + intros (H1 & H2 & H3 & H4). repeat split; auto.
        * intros o2 k Ho2. apply H1, in_app_iff. auto.
        * intros k Kb Ka. apply joined_keys in Ka. destruct Ka as (o2 & [<-|Ho2] & K2).
          -- apply joined_keys in Kb. destruct Kb as (o3 & Ho3 & K3). apply (H1 o3 k); [apply in_app_iff; auto|exact K3|exact K2].
          -- apply (H4 k Kb). apply joined_keys. eauto.
      + intros ((H1 & H2) & H3 & H4). repeat split; auto.
        * intros o2 k Ho2 K2 K. apply in_app_iff in Ho2. destruct Ho2 as [Ho2|Ho2]; [exact (H1 o2 k Ho2 K2 K)|].
          apply (H4 k); apply joined_keys; [exists o2; auto|exists o; split; [left; reflexivity|exact K]].
        * intros k Kb Ka. apply (H4 k Kb). apply joined_keys in Ka. destruct Ka as (o2 & Ho2 & K2). apply joined_keys. exists o2. split; [right; exact Ho2|exact K2].
  Qed.
  Lemma composes_nonempty l (t : inf L) : composes l t -> l <> [].
  Proof. induction 1; [discriminate|]. destruct l1; [congruence|discriminate]. Qed.
  Lemma composes_node l (t : inf L) : composes l t -> 2 <= length l -> exists i l1 l2 q2 q1 o, l = l1 ++ l2 /\ t = ICompose i q2 q1 o /\ composes l1 q1 /\ composes l2 q2 /\ plain_opts o.
  Proof. intros H Hl. inversion H; subst; [cbn in Hl; lia|]. repeat eexists; eauto; apply H2. Qed.

  (** one Compose, given what its two programs compute *)
  Lemma node_summed o (kws : dict pyval) os1 os2 o1 o2 r : plain_opts o -> os1 <> [] -> os2 <> [] ->
    let kw := sub_kwargs VNone kws in
    summed kw os1 o1 -> summed kw os2 o2 -> wf_dict (out_trace o1) -> wf_dict (out_trace o2) -> compose_tail o kws o1 o2 = Ok r -> summed kw (os1 ++ os2) r.
  Proof.
    intros (Hl & Hl0 & Hix) M1 M2 kw S1 S2 W1 W2 Ht.
    destruct (tail_fields _ _ _ _ _ Hl W1 W2 Ht) as (D & Er & Ew & Eo & Ey & Ei & El).
    constructor.
    - rewrite Er, (sm_trace _ _ _ S1), (sm_trace _ _ _ S2), joined_app. reflexivity.
    - rewrite Ew, (sm_weight _ _ _ S1), (sm_weight _ _ _ S2), weights_app. reflexivity.
    - intros d. rewrite Eo, <- (sm_output _ _ _ S2 d). unfold final. rewrite map_app.
      destruct os2 as [|o' os2]; [congruence|]. clear. induction os1 as [|x os1 IH]; [reflexivity|]. cbn [map app].
      change (last (out_output x :: map out_output os1 ++ map out_output (o' :: os2)) d = last (map out_output (o' :: os2)) d).
      rewrite <- IH. destruct os1; reflexivity.
    - intros _. rewrite Ey, Ei, El, Hix, Hl0. repeat split. f_equal.
      destruct os1 as [|x os1]; [congruence|]. cbn [app first_loss].
      destruct os1 as [|y os1]; [rewrite (sm_one _ _ _ S1 x eq_refl); reflexivity|].
      destruct (sm_many _ _ _ S1) as (_ & _ & ->); [cbn; lia|]. reflexivity.
    - intros x E. destruct os1 as [|x1 os1]; [congruence|]. destruct os2; [congruence|].
      destruct os1; discriminate.
  Qed.
  Lemma node_from i l1 l2 q2 q1 o c (kws : dict pyval) s ds r s' : wf_dict kws -> wf_st s -> plain_opts o ->
    let kw := sub_kwargs VNone kws in
    (forall c s ds r s', wf_st s -> path (run q1 c kw s) ds (Ok r, s') -> exists os, in_turn kw l1 c s ds os s' /\ apart os /\ summed kw os r) ->
    (forall c s ds r s', wf_st s -> path (run q2 c kw s) ds (Ok r, s') -> exists os, in_turn kw l2 c s ds os s' /\ apart os /\ summed kw os r) ->
    path (run (ICompose i q2 q1 o) c kws s) ds (Ok r, s') ->
    clash ["self"; "c"; "fn"] kws = false /\ exists os, in_turn kw (l1 ++ l2) c s ds os s' /\ apart os /\ summed kw os r.
  Proof.
    intros Hk Hs (Hl & Hl0 & Hix) kw H1 H2 H. apply compose_path in H; [|exact Hk]. destruct H as (Hc & d1 & o1 & s1 & d2 & o2 & -> & P1 & P2 & Ht).
    rewrite Hix in P1, P2. fold kw in P1, P2. assert (Hkw : wf_dict kw) by (apply wf_sub_kwargs, Hk). split; [exact Hc|].
    destruct (run_returns_wf _ _ _ _ _ _ Hkw Hs (path_returns _ _ _ _ _ P1)) as [W1 Hs1].
    destruct (run_returns_wf _ _ _ _ _ _ Hkw Hs1 (path_returns _ _ _ _ _ P2)) as [W2 _].
    destruct (H1 _ _ _ _ _ Hs P1) as (os1 & T1 & A1 & S1). destruct (H2 _ _ _ _ _ Hs1 P2) as (os2 & T2 & A2 & S2).
    destruct (tail_fields _ _ _ _ _ Hl W1 W2 Ht) as (D & Er & Ew & Eo & Ey & Ei & El).
    destruct (turn_length _ _ _ _ _ _ _ T1) as [N1 M1]. destruct (turn_length _ _ _ _ _ _ _ T2) as [N2 M2].
    assert (Q1 : os1 <> []) by (destruct os1, l1; cbn in *; congruence). assert (Q2 : os2 <> []) by (destruct os2, l2; cbn in *; congruence).
    exists (os1 ++ os2). split; [|split].
    - eapply turn_app; [exact T1|]. intros d. rewrite (sm_output _ _ _ S1). exact T2.
    - apply apart_app. repeat split; try assumption. rewrite <- (sm_trace _ _ _ S1), <- (sm_trace _ _ _ S2). exact D.
    - eapply node_summed; [repeat split; eassumption|exact Q1|exact Q2|exact S1|exact S2|exact W1|exact W2|exact Ht].
  Qed.
  Lemma node_to i l1 l2 q2 q1 o c (kws : dict pyval) s ds os s' : wf_dict kws -> wf_st s -> plain_opts o -> l1 <> [] -> l2 <> [] ->
    clash ["self"; "c"; "fn"] kws = false ->
    let kw := sub_kwargs VNone kws in
    (forall c s ds os s', wf_st s -> in_turn kw l1 c s ds os s' -> apart os -> exists r, path (run q1 c kw s) ds (Ok r, s') /\ summed kw os r) ->
    (forall c s ds os s', wf_st s -> in_turn kw l2 c s ds os s' -> apart os -> exists r, path (run q2 c kw s) ds (Ok r, s') /\ summed kw os r) ->
    in_turn kw (l1 ++ l2) c s ds os s' -> apart os ->
    exists r, path (run (ICompose i q2 q1 o) c kws s) ds (Ok r, s') /\ summed kw os r.
  Proof.
    intros Hk Hs (Hl & Hl0 & Hix) M1 M2 Hc kw H1 H2 H Ha. assert (Hkw : wf_dict kw) by (apply wf_sub_kwargs, Hk).
    destruct (turn_split _ _ M1 _ _ _ _ _ _ M2 H) as (d1 & os1 & s1 & d2 & os2 & -> & -> & T1 & T2).
    apply apart_app in Ha. destruct Ha as (A1 & A2 & D).
    destruct (H1 _ _ _ _ _ Hs T1 A1) as (o1 & P1 & S1).
    destruct (run_returns_wf _ _ _ _ _ _ Hkw Hs (path_returns _ _ _ _ _ P1)) as [W1 Hs1].
    specialize (T2 VNone). rewrite (sm_output _ _ _ S1) in T2.
    destruct (H2 _ _ _ _ _ Hs1 T2 A2) as (o2 & P2 & S2).
    destruct (run_returns_wf _ _ _ _ _ _ Hkw Hs1 (path_returns _ _ _ _ _ P2)) as [W2 _].
    destruct (tail_exists o kws o1 o2 Hl W1 W2) as (r & Hr).
    { rewrite (sm_trace _ _ _ S1), (sm_trace _ _ _ S2). exact D. }
    destruct (turn_length _ _ _ _ _ _ _ T1) as [N1 _]. destruct (turn_length _ _ _ _ _ _ _ T2) as [N2 _].
    assert (Q1 : os1 <> []) by (destruct os1, l1; cbn in *; congruence). assert (Q2 : os2 <> []) by (destruct os2, l2; cbn in *; congruence).
    exists r. split.
    - apply compose_path; [exact Hk|]. split; [exact Hc|]. exists d1, o1, s1, d2, o2. rewrite Hix. auto.
    - eapply node_summed; [repeat split; eassumption|exact Q1|exact Q2|exact S1|exact S2|exact W1|exact W2|exact Hr].
  Qed.
  Lemma composes_from l (t : inf L) : composes l t -> forall (kws : dict pyval), wf_dict kws -> forall c s ds r s', wf_st s ->
    path (run t c (sub_kwargs VNone kws) s) ds (Ok r, s') ->
    exists os, in_turn (sub_kwargs VNone kws) l c s ds os s' /\ apart os /\ summed (sub_kwargs VNone kws) os r.
  Proof.
    induction 1 as [q|i l1 l2 q2 q1 o C1 IH1 C2 IH2 Ho]; intros kws Hk c s ds r s' Hs H.
    - exists [r]. split; [constructor; exact H|]. split; [cbn; tauto|]. constructor.
      + unfold joined. cbn. rewrite app_nil_r. reflexivity.
      + unfold weights. cbn. rewrite (tadd_comm L HL). symmetry. apply (tadd_zero L HL).
      + reflexivity.
      + cbn. lia.
      + intros o [= ->]. reflexivity.
    - pose proof (wf_sub_kwargs VNone kws Hk) as Hk'. pose proof (sub_again VNone kws) as E.
      destruct (node_from i l1 l2 q2 q1 o c (sub_kwargs VNone kws) s ds r s' Hk' Hs Ho) as [_ R]; rewrite ?E in *; [|exact (IH2 kws Hk)|exact H|exact R].
      exact (IH1 kws Hk).
  Qed.
  Lemma composes_to l (t : inf L) : composes l t -> forall (kws : dict pyval), wf_dict kws -> clash ["self"; "c"; "fn"] kws = false -> forall c s ds os s', wf_st s ->
    in_turn (sub_kwargs VNone kws) l c s ds os s' -> apart os -> exists r, path (run t c (sub_kwargs VNone kws) s) ds (Ok r, s') /\ summed (sub_kwargs VNone kws) os r.
  Proof.
    intros Ht kws Hk Hc. pose proof (wf_sub_kwargs VNone kws Hk) as Hk'. pose proof (sub_again VNone kws) as E. pose proof (clash_again VNone kws Hc) as Hc'.
    induction Ht as [q|i l1 l2 q2 q1 o C1 IH1 C2 IH2 Ho]; intros c s ds os s' Hs H Ha.
    - inversion H as [? ? ? ? o ? Hp|? ? ? ? ? ? ? ? ? ? _ Hr]; subst; [|inversion Hr].
      exists o. split; [exact Hp|].
      destruct (composes_from [q] q (composes_one q) kws Hk _ _ _ _ _ Hs Hp) as (os & T & _ & S).
      pose proof (turn_length _ _ _ _ _ _ _ T) as [N _]. destruct os as [|o' [|]]; try discriminate. rewrite <- (sm_one _ _ _ S o' eq_refl) in S. exact S.
    - destruct (node_to i l1 l2 q2 q1 o c (sub_kwargs VNone kws) s ds os s' Hk' Hs Ho (composes_nonempty _ _ C1) (composes_nonempty _ _ C2) Hc') as (r & Hr & Hm); rewrite ?E in *; try assumption.
      eauto.
  Qed.
End Bracketing.

(** Programs composed one after the other: however the Composes are nested, the same draws lead to the same
    trace, log-weight, output, index and loss, and leave the same state. *)
Theorem C83_any_nesting : forall (L : lib), lib_laws L -> forall l (t t' : inf L) c kws s ds r s',
  composes l t -> composes l t' -> 2 <= length l -> wf_dict kws -> wf_st s ->
  path (run t c kws s) ds (Ok r, s') -> exists r', path (run t' c kws s) ds (Ok r', s') /\ same_result r r'.
Proof.
  intros L HL l t t' c kws s ds r s' Ht Ht' Hl Hk Hs H.
  destruct (composes_node _ _ Ht Hl) as (i & l1 & l2 & q2 & q1 & o & El & -> & C1 & C2 & Ho).
  destruct (composes_node _ _ Ht' Hl) as (i' & l1' & l2' & q2' & q1' & o' & El' & -> & C1' & C2' & Ho').
  destruct (node_from HL i l1 l2 q2 q1 o c kws s ds r s' Hk Hs Ho) as (Hc & os & T & A & S);
    [intros; eapply (composes_from HL); eassumption..|exact H|].
  destruct (node_to HL i' l1' l2' q2' q1' o' c kws s ds os s' Hk Hs Ho' (composes_nonempty _ _ C1') (composes_nonempty _ _ C2') Hc) as (r' & P & S');
    [intros; eapply (composes_to HL); eassumption..|rewrite <- El', El; exact T|exact A|].
  exists r'. split; [exact P|]. destruct (turn_length _ _ _ _ _ _ _ T) as [N _]. rewrite <- El in N.
  destruct (sm_many _ _ _ S) as (Y & X & P1); [lia|]. destruct (sm_many _ _ _ S') as (Y' & X' & P1'); [lia|].
  constructor; try congruence.
  - rewrite (sm_trace _ _ _ S), (sm_trace _ _ _ S'). reflexivity.
  - rewrite (sm_weight _ _ _ S), (sm_weight _ _ _ S'). reflexivity.
  - rewrite <- (sm_output _ _ _ S VNone), <- (sm_output _ _ _ S' VNone). reflexivity.
Qed.
Print Assumptions C83_any_nesting.

(** The same for two Composes, with any index given to the outer one. *)
Theorem C83_associative : forall (L : lib), lib_laws L -> forall i j i' j' (q3 q2 q1 : inf L) o oin c kws s ds s',
  wf_dict kws -> wf_st s -> in_loss o = default_loss -> in_loss0 o = None -> plain_opts oin ->
  (forall r, path (run (ICompose i q3 (ICompose j q2 q1 oin) o) c kws s) ds (Ok r, s') ->
     exists r', path (run (ICompose i' (ICompose j' q3 q2 oin) q1 o) c kws s) ds (Ok r', s') /\ same_result r r') /\
  (forall r, path (run (ICompose i' (ICompose j' q3 q2 oin) q1 o) c kws s) ds (Ok r, s') ->
     exists r', path (run (ICompose i q3 (ICompose j q2 q1 oin) o) c kws s) ds (Ok r', s') /\ same_result r r').
Proof.
  intros L HL i j i' j' q3 q2 q1 o oin c kws s ds s' Hk Hs Hl Hl0 (Hm & Hm0 & Hix). split; intros r H.
  - eapply (assoc_right HL); eassumption.
  - eapply (assoc_left HL); eassumption.
Qed.
Print Assumptions C83_associative.

(** A program that samples and observes nothing and returns its argument. *)
Definition pass {L : lib} (u : nat) (sg : sig) : inf L := IProg u sg (fun c _ => MRet c).
Definition same_sample {L : lib} (a b : out L) : Prop :=
  out_trace a = out_trace b /\ out_lw a = out_lw b /\ out_output a = out_output b.
Section Unit.
  Context {L : lib} (HL : lib_laws L).
  Notation pyval := (pyval (T L)).
  Definition passed (c : pyval) : out L := mkOut [] (tzero L) c TyProgram None None None None [].
  Lemma passed_wf c : wf_dict (out_trace (passed c)).
  Proof. apply wf_nil. Qed.
  Lemma pass_eq u sg c (kws : dict pyval) s : clash ["self"] kws || clash (firstn 3 (s_args sg)) (prog_kwargs sg kws) = false ->
    teq (run (pass (L := L) u sg) c kws s) (Leaf (Ok (passed c), log_call (mkCall u c (prog_kwargs sg kws) (get_cond u s)) s)).
  Proof.
    intros Hc. eapply teq_trans; [apply (forward_eq u sg _ c kws s Hc)|]. cbn [exec ret tbind]. unfold after. cbn [fst snd prog_tail].
    assert (E : order L [] = []) by (apply Permutation_nil, Permutation_sym, (order_perm L HL)).
    assert (El : log_joint (k_sd kws) (k_bd kws) (k_rep kws) (sdiff (dkeys ([] : trace L)) (sdiff (latent_addrs (L := L) []) (match get_cond u s with Some ct => latent_addrs ct | None => [] end))) ([] : trace L) = Ok (tzero L)).
    { unfold log_joint. cbn [dkeys map sdiff filter]. rewrite E. reflexivity. }
    rewrite El. apply teq_refl.
  Qed.
  Lemma pass_inv u sg c (kws : dict pyval) s ds o s' : path (run (pass (L := L) u sg) c kws s) ds (Ok o, s') -> ds = [] /\ o = passed c /\ agree s' s.
  Proof.
    intros H. destruct (clash ["self"] kws || clash (firstn 3 (s_args sg)) (prog_kwargs sg kws)) eqn:Hc.
    - exfalso. cbn [pass run] in H. unfold forward in H. fold (k_sd kws) in H. fold (k_bd kws) in H. fold (k_rep kws) in H. fold (prog_kwargs sg kws) in H.
      rewrite Hc in H. inversion H.
    - eapply teq_path in H; [|apply pass_eq, Hc]. inversion H; subst. repeat split; reflexivity.
  Qed.
  Lemma agree_sym (a b : st L) : agree a b -> agree b a.
  Proof. intros (H1 & H2 & H3). split; [intros i; symmetry; apply H1|split; symmetry; assumption]. Qed.

  Lemma agree_path (t : inf L) c (kws : dict pyval) s s1 ds r s' : agree s s1 -> path (run t c kws s) ds (Ok r, s') ->
    exists s2, path (run t c kws s1) ds (Ok r, s2) /\ agree s' s2.
  Proof.
    intros Ha H. destruct (sd_path _ _ _ (run_agree t c kws s s1 Ha) _ _ H) as ([r2 s2] & H2 & Hr). destruct Hr as [E Hs]. cbn [fst snd] in *. destruct r2 as [a|e]; [|contradiction]. cbn in E. subst a. eauto.
  Qed.
  Lemma wf_agree (a b : st L) : agree a b -> wf_st a -> wf_st b.
  Proof. intros (H & _) Hw i t E. apply (Hw i t). rewrite H. exact E. Qed.

  Lemma unit_last i u sg q o c (kws : dict pyval) s : wf_dict kws -> wf_st s -> in_loss o = default_loss ->
    (forall ds r s', path (run (ICompose i (pass u sg) q o) c kws s) ds (Ok r, s') ->
       exists o1 s1, path (run q c (sub_kwargs (in_ix o) kws) s) ds (Ok o1, s1) /\ same_sample r o1 /\ agree s' s1) /\
    (clash ["self"; "c"; "fn"] kws = false -> clash (firstn 3 (s_args sg)) (prog_kwargs sg (sub_kwargs (in_ix o) kws)) = false ->
     forall ds o1 s1, path (run q c (sub_kwargs (in_ix o) kws) s) ds (Ok o1, s1) ->
       exists r s', path (run (ICompose i (pass u sg) q o) c kws s) ds (Ok r, s') /\ same_sample r o1 /\ agree s' s1).
  Proof.
    intros Hk Hs Hl. assert (Hkw : wf_dict (sub_kwargs (in_ix o) kws)) by (apply wf_sub_kwargs, Hk). split.
    - intros ds r s' H. apply compose_path in H; [|exact Hk]. destruct H as (_ & d1 & o1 & s1 & d2 & o2 & -> & P1 & P2 & Ht).
      apply pass_inv in P2. destruct P2 as (-> & -> & Ha). rewrite app_nil_r.
      destruct (run_returns_wf _ _ _ _ _ _ Hkw Hs (path_returns _ _ _ _ _ P1)) as [W1 _].
      destruct (tail_fields _ _ _ _ _ Hl W1 (passed_wf _) Ht) as (_ & Er & Ew & Eo & _).
      exists o1, s1. split; [exact P1|]. split; [|exact Ha]. split; [exact Er|]. split; [|exact Eo].
      rewrite Ew. cbn [passed out_lw]. rewrite (tadd_comm L HL). apply (tadd_zero L HL).
    - intros Hc Hc' ds o1 s1 P1. destruct (run_returns_wf _ _ _ _ _ _ Hkw Hs (path_returns _ _ _ _ _ P1)) as [W1 _].
      assert (Hcs : clash ["self"] (sub_kwargs (in_ix o) kws) = false).
      { rewrite clash_sub_kwargs by (cbn; intuition discriminate). clear - Hc. unfold clash in *. induction kws as [|[k v] kws IH]; [reflexivity|].
        cbn [existsb fst] in *. apply orb_false_iff in Hc. destruct Hc as [Hc1 Hc2]. rewrite (IH Hc2), orb_false_r. cbn [mem existsb] in *. destruct (String.eqb k "self"); [discriminate|reflexivity]. }
      destruct (tail_exists o kws o1 (passed (out_output o1)) Hl W1 (passed_wf _)) as (r & Hr); [intros k []|].
      destruct (tail_fields _ _ _ _ _ Hl W1 (passed_wf _) Hr) as (_ & Er & Ew & Eo & _).
      eexists r, _. split; [|split].
      + apply compose_path; [exact Hk|]. split; [exact Hc|]. exists ds, o1, s1, [], (passed (out_output o1)). split; [symmetry; apply app_nil_r|]. split; [exact P1|]. split; [|exact Hr].
        eapply teq_path; [apply teq_sym, pass_eq; rewrite Hcs; exact Hc'|constructor].
      + split; [exact Er|]. split; [|exact Eo]. rewrite Ew. cbn [passed out_lw]. rewrite (tadd_comm L HL). apply (tadd_zero L HL).
      + repeat split; reflexivity.
  Qed.
  Lemma unit_first i u sg q o c (kws : dict pyval) s : wf_dict kws -> wf_st s -> in_loss o = default_loss ->
    (forall ds r s', path (run (ICompose i q (pass u sg) o) c kws s) ds (Ok r, s') ->
       exists o1 s1, path (run q c (sub_kwargs (in_ix o) kws) s) ds (Ok o1, s1) /\ same_sample r o1 /\ agree s' s1) /\
    (clash ["self"; "c"; "fn"] kws = false -> clash (firstn 3 (s_args sg)) (prog_kwargs sg (sub_kwargs (in_ix o) kws)) = false ->
     forall ds o1 s1, path (run q c (sub_kwargs (in_ix o) kws) s) ds (Ok o1, s1) ->
       exists r s', path (run (ICompose i q (pass u sg) o) c kws s) ds (Ok r, s') /\ same_sample r o1 /\ agree s' s1).
  Proof.
    intros Hk Hs Hl. assert (Hkw : wf_dict (sub_kwargs (in_ix o) kws)) by (apply wf_sub_kwargs, Hk). split.
    - intros ds r s' H. apply compose_path in H; [|exact Hk]. destruct H as (_ & d1 & o1 & s1 & d2 & o2 & -> & P1 & P2 & Ht).
      apply pass_inv in P1. destruct P1 as (-> & -> & Ha). cbn [app passed out_output] in *.
      destruct (agree_path _ _ _ _ _ _ _ _ Ha P2) as (s2 & P2' & Ha2).
      destruct (run_returns_wf _ _ _ _ _ _ Hkw Hs (path_returns _ _ _ _ _ P2')) as [W2 _].
      destruct (tail_fields _ _ (passed c) _ _ Hl (passed_wf _) W2 Ht) as (_ & Er & Ew & Eo & _).
      exists o2, s2. split; [exact P2'|]. split; [|exact Ha2]. split; [rewrite Er; apply app_nil_r|]. split; [|exact Eo].
      rewrite Ew. apply (tadd_zero L HL).
    - intros Hc Hc' ds o1 s1 P1. destruct (run_returns_wf _ _ _ _ _ _ Hkw Hs (path_returns _ _ _ _ _ P1)) as [W1 _].
      assert (Hcs : clash ["self"] (sub_kwargs (in_ix o) kws) = false).
      { rewrite clash_sub_kwargs by (cbn; intuition discriminate). clear - Hc. unfold clash in *. induction kws as [|[k v] kws IH]; [reflexivity|].
        cbn [existsb fst] in *. apply orb_false_iff in Hc. destruct Hc as [Hc1 Hc2]. rewrite (IH Hc2), orb_false_r. cbn [mem existsb] in *. destruct (String.eqb k "self"); [discriminate|reflexivity]. }
      set (s0 := log_call (mkCall u c (prog_kwargs sg (sub_kwargs (in_ix o) kws)) (get_cond u s)) s).
      destruct (agree_path q c _ s s0 ds o1 s1 ltac:(repeat split; reflexivity) P1) as (s2 & P2 & Ha).
      destruct (tail_exists o kws (passed c) o1 Hl (passed_wf _) W1) as (r & Hr); [intros k _ []|].
      destruct (tail_fields _ _ _ _ _ Hl (passed_wf _) W1 Hr) as (_ & Er & Ew & Eo & _).
      exists r, s2. split; [|split].
      + apply compose_path; [exact Hk|]. split; [exact Hc|]. exists [], (passed c), s0, ds, o1. split; [reflexivity|]. split; [|split; [exact P2|exact Hr]].
        eapply teq_path; [apply teq_sym, pass_eq; rewrite Hcs; exact Hc'|constructor].
      + split; [rewrite Er; apply app_nil_r|]. split; [|exact Eo]. rewrite Ew. apply (tadd_zero L HL).
      + apply agree_sym, Ha.
  Qed.
End Unit.

(** Composing with such a program, before or after, changes neither trace, log-weight nor output, on any
    draws; the state differs only in the log of calls ([agree]: same conditioning, same global store). *)
Theorem C83_unit_last : forall (L : lib), lib_laws L -> forall i u sg (q : inf L) o c kws s,
  wf_dict kws -> wf_st s -> in_loss o = default_loss ->
  (forall ds r s', path (run (ICompose i (pass u sg) q o) c kws s) ds (Ok r, s') ->
     exists o1 s1, path (run q c (sub_kwargs (in_ix o) kws) s) ds (Ok o1, s1) /\ same_sample r o1 /\ agree s' s1) /\
  (clash ["self"; "c"; "fn"] kws = false -> clash (firstn 3 (s_args sg)) (prog_kwargs sg (sub_kwargs (in_ix o) kws)) = false ->
   forall ds o1 s1, path (run q c (sub_kwargs (in_ix o) kws) s) ds (Ok o1, s1) ->
     exists r s', path (run (ICompose i (pass u sg) q o) c kws s) ds (Ok r, s') /\ same_sample r o1 /\ agree s' s1).
Proof. intros L HL. exact (unit_last HL). Qed.
Print Assumptions C83_unit_last.
Theorem C83_unit_first : forall (L : lib), lib_laws L -> forall i u sg (q : inf L) o c kws s,
  wf_dict kws -> wf_st s -> in_loss o = default_loss ->
  (forall ds r s', path (run (ICompose i q (pass u sg) o) c kws s) ds (Ok r, s') ->
     exists o1 s1, path (run q c (sub_kwargs (in_ix o) kws) s) ds (Ok o1, s1) /\ same_sample r o1 /\ agree s' s1) /\
  (clash ["self"; "c"; "fn"] kws = false -> clash (firstn 3 (s_args sg)) (prog_kwargs sg (sub_kwargs (in_ix o) kws)) = false ->
   forall ds o1 s1, path (run q c (sub_kwargs (in_ix o) kws) s) ds (Ok o1, s1) ->
     exists r s', path (run (ICompose i q (pass u sg) o) c kws s) ds (Ok r, s') /\ same_sample r o1 /\ agree s' s1).
Proof. intros L HL. exact (unit_first HL). Qed.
Print Assumptions C83_unit_first.

(** ** an instance: three programs in both nestings *)
Definition P_w : inf ZL := IProg (L := ZL) 3 sig_model (fun _ _ => MVar (L := ZL) "w" 2%Z None true (fun w => MRet (L := ZL) (VDict [("w", VTensor w)]))).
Definition nest_r : inf ZL := ICompose 10 P_w (ICompose 11 P_z P_xy opts0) opts0.
Definition nest_l : inf ZL := ICompose 10 (ICompose 11 P_w P_z opts0) P_xy opts0.
Example C83_hypotheses : composes [P_xy; P_z; P_w] nest_r /\ composes [P_xy; P_z; P_w] nest_l /\ plain_opts opts0 /\ wf_st (st0 ZL) /\
  clash (L := ZL) ["self"; "c"; "fn"] [] = false /\ clash (firstn 3 (s_args sig_model)) (prog_kwargs (L := ZL) sig_model (sub_kwargs VNone [])) = false.
Proof.
  assert (Ho : plain_opts opts0) by (repeat split; reflexivity).
  split; [|split; [|split; [exact Ho|split; [intros i t E; discriminate|split; reflexivity]]]].
  - apply (composes_two 10 [P_xy; P_z] [P_w]); [|constructor|exact Ho]. apply (composes_two 11 [P_xy] [P_z]); [constructor..|exact Ho].
  - apply (composes_two 10 [P_xy] [P_z; P_w]); [constructor| |exact Ho]. apply (composes_two 11 [P_z] [P_w]); [constructor..|exact Ho].
Qed.
Example C83_case : exists o s', returns (run nest_r VNone []) (st0 ZL) o s' /\ (dkeys (out_trace o), fst (out_lw o)) = (["w"; "z"; "x"; "y"], (true, -4)%Z).
Proof. apply (seen_by (L := ZL) _ _ [zten 9; zten 8; zten 5] (fun o _ => _)). vm_compute. reflexivity. Qed.
(** Only returned results are compared: when the first two programs share an address, one nesting stops before the third
    program runs and the other one after. *)
Example C83_exceptions_differ :
  (exists s', path (run (ICompose 10 P_z (ICompose 11 P_xy P_xy opts0) opts0) VNone [] (st0 ZL))
    [(DrawDist (L := ZL) 3%Z true VNone, zten 9); (DrawDist (L := ZL) 3%Z true VNone, zten 8)] (Err AssertionError, s')) /\
  (exists s', path (run (ICompose 10 (ICompose 11 P_z P_xy opts0) P_xy opts0) VNone [] (st0 ZL))
    [(DrawDist (L := ZL) 3%Z true VNone, zten 9); (DrawDist (L := ZL) 3%Z true VNone, zten 8); (DrawDist (L := ZL) 4%Z true VNone, zten 8)] (Err AssertionError, s')).
Proof.
  split; [apply (raised_by (L := ZL) _ _ [zten 9; zten 8])|apply (raised_by (L := ZL) _ _ [zten 9; zten 8; zten 8])]; vm_compute; reflexivity.
Qed.
