(** Decimal numerals and the keys built from them. *)
From Coq Require Import DecimalString DecimalNat Ascii.
From Verif Require Import BaseFacts.
From Verif Require Export Utils.

Fixpoint has_char (c : ascii) (s : string) : bool :=
  match s with EmptyString => false | String a s' => Ascii.eqb a c || has_char c s' end.

Lemma has_char_app c a b : has_char c (a ++ b)%string = has_char c a || has_char c b.
Proof. induction a; cbn; [reflexivity|]. rewrite IHa, orb_assoc. reflexivity. Qed.

Lemma show_inj n m : show n = show m -> n = m.
Proof.
  unfold show. intros H.
  assert (Hn : forall k, Nat.to_uint k <> Decimal.Nil).
  { intros k E. pose proof (Unsigned.of_to k) as H0. rewrite E in H0. cbn in H0. subst k. discriminate. }
  rewrite <- (Unsigned.of_to n), <- (Unsigned.of_to m). f_equal.
  pose proof (NilZero.usu _ (Hn n)) as H1. pose proof (NilZero.usu _ (Hn m)) as H2.
  rewrite H in H1. rewrite H1 in H2. injection H2 as H2. exact H2.
Qed.

Definition digit (c : ascii) : bool := mem (String c "") ["0";"1";"2";"3";"4";"5";"6";"7";"8";"9"].
Lemma show_digits n c : has_char c (show n) = true -> digit c = true.
Proof.
  unfold show. generalize (Nat.to_uint n). intros d.
  assert (H : forall d, has_char c (NilEmpty.string_of_uint d) = true -> digit c = true).
  { clear. induction d; cbn [NilEmpty.string_of_uint has_char]; [discriminate|..];
      (intros H; apply orb_prop in H; destruct H as [H|H]; [apply Ascii.eqb_eq in H; subst c; reflexivity|auto]). }
  destruct d; try exact (H _). cbn [NilZero.string_of_uint NilEmpty.string_of_uint has_char]. rewrite orb_false_r. intros E. apply Ascii.eqb_eq in E. subst c. reflexivity.
Qed.
Lemma show_nonempty n : show n <> "".
Proof.
  unfold show. destruct (Nat.to_uint n); cbn; discriminate.
Qed.
Lemma show_no_us n : has_char "_" (show n) = false.
Proof. destruct (has_char "_" (show n)) eqn:E; [|reflexivity]. apply show_digits in E. discriminate. Qed.

Lemma split_first c a b x y : has_char c a = false -> has_char c b = false ->
  (a ++ String c x)%string = (b ++ String c y)%string -> a = b /\ x = y.
Proof.
  revert b. induction a as [|h a IH]; intros [|h' b]; cbn; intros Ha Hb E.
  - injection E as E. auto.
  - injection E as E1 E2. subst h'. rewrite Ascii.eqb_refl in Hb. discriminate.
  - injection E as E1 E2. subst h. rewrite Ascii.eqb_refl in Ha. discriminate.
  - injection E as -> E2. apply orb_false_elim in Ha, Hb. destruct (IH b) as [-> ->]; try tauto.
Qed.
Lemma split_last c a b x y : has_char c a = false -> has_char c b = false ->
  (x ++ String c a)%string = (y ++ String c b)%string -> x = y /\ a = b.
Proof.
  revert y. induction x as [|h x IH]; intros [|h' y]; cbn; intros Ha Hb E.
  - injection E as E. auto.
  - injection E as E1 E2. subst. rewrite has_char_app in Ha. cbn in Ha. rewrite Ascii.eqb_refl, orb_true_r in Ha. discriminate.
  - injection E as E1 E2. subst. rewrite has_char_app in Hb. cbn in Hb. rewrite Ascii.eqb_refl, orb_true_r in Hb. discriminate.
  - injection E as -> E2. destruct (IH y) as [-> ->]; try tauto.
Qed.

Lemma model_key_inj i n j i' n' j' : model_key i n j = model_key i' n' j' -> i = i' /\ n = n' /\ j = j'.
Proof.
  unfold model_key. cbn [append]. intros H.
  apply split_first in H; try apply show_no_us. destruct H as [Hi H]. apply show_inj in Hi.
  apply split_last in H; try apply show_no_us. destruct H as [Hn Hj]. apply show_inj in Hj. auto.
Qed.

(** ** What models_as_dict builds *)
Fixpoint group_items (i : nat) (name : string) (j : nat) (ms : list nat) : dict nat :=
  match ms with [] => [] | m :: ms' => (model_key i name j, m) :: group_items i name (S j) ms' end.
Fixpoint all_items (i : nat) (gs : list (string * list nat)) : dict nat :=
  match gs with [] => [] | (name, ms) :: gs' => group_items i name 0 ms ++ all_items (S i) gs' end.

Lemma In_group_items k m i name j ms : In (k, m) (group_items i name j ms) <->
  exists j', k = model_key i name (j + j') /\ nth_error ms j' = Some m.
Proof.
  revert j. induction ms as [|m0 ms IH]; intros j; cbn [group_items In].
  - split; [tauto|]. intros ([|j'] & _ & H); discriminate.
  - rewrite IH. split.
    + intros [[= <- <-]|(j' & -> & H)].
      * exists 0. rewrite Nat.add_0_r. auto.
      * exists (S j'). rewrite Nat.add_succ_r. auto.
    + intros ([|j'] & -> & H).
      * left. injection H as <-. rewrite Nat.add_0_r. reflexivity.
      * right. exists j'. rewrite Nat.add_succ_r. auto.
Qed.
Lemma In_all_items k m i gs : In (k, m) (all_items i gs) <->
  exists i' j name ms, nth_error gs i' = Some (name, ms) /\ nth_error ms j = Some m /\ k = model_key (i + i') name j.
Proof.
  revert i. induction gs as [|[n0 ms0] gs IH]; intros i; cbn [all_items].
  - split; [intros []|]. intros ([|i'] & j & name & ms & H & _); discriminate.
  - rewrite in_app_iff, In_group_items, IH. split.
    + intros [(j & -> & H)|(i' & j & name & ms & H1 & H2 & ->)].
      * exists 0, j, n0, ms0. rewrite Nat.add_0_r. auto.
      * exists (S i'), j, name, ms. rewrite Nat.add_succ_r. auto.
    + intros ([|i'] & j & name & ms & H1 & H2 & ->).
      * left. injection H1 as -> ->. exists j. rewrite Nat.add_0_r. auto.
      * right. exists i', j, name, ms. rewrite Nat.add_succ_r. auto.
Qed.
Lemma dkeys_In {V} k (d : dict V) : In k (dkeys d) <-> exists v, In (k, v) d.
Proof.
  unfold dkeys. rewrite in_map_iff. split.
  - intros ([k' v] & <- & H). eauto.
  - intros (v & H). exists (k, v). auto.
Qed.
Lemma wf_group_items i name j ms : wf_dict (group_items i name j ms).
Proof.
  unfold wf_dict. revert j. induction ms as [|m ms IH]; intros j; cbn; constructor; [|apply IH].
  intros H. apply dkeys_In in H. destruct H as (v & H). apply In_group_items in H. destruct H as (j' & H & _).
  apply model_key_inj in H. lia.
Qed.
Lemma wf_all_items i gs : wf_dict (all_items i gs).
Proof.
  revert i. induction gs as [|[name ms] gs IH]; intros i; cbn; [constructor|].
  unfold wf_dict. rewrite dkeys_app. generalize (wf_group_items i name 0 ms) (IH (S i)). unfold wf_dict.
  intros H1 H2.
  assert (Hd : forall k, In k (dkeys (group_items i name 0 ms)) -> ~ In k (dkeys (all_items (S i) gs))).
  { intros k Ha Hb. apply dkeys_In in Ha, Hb. destruct Ha as (v & Ha), Hb as (w & Hb).
    apply In_group_items in Ha. apply In_all_items in Hb.
    destruct Ha as (j' & -> & _), Hb as (i' & j & n & ms' & _ & _ & H). apply model_key_inj in H. lia. }
  revert H1 Hd. generalize (dkeys (group_items i name 0 ms)) as l. induction l as [|x l IHl]; intros Hl Hd; [exact H2|].
  inversion Hl; subst. cbn. constructor.
  - rewrite in_app_iff. intros [H|H]; [tauto|]. apply (Hd x); [left; reflexivity|exact H].
  - apply IHl; [assumption|]. intros k Hk. apply Hd. right. exact Hk.
Qed.

Lemma add_models_items i name j ms d :
  (forall k, In k (dkeys (group_items i name j ms)) -> ~ In k (dkeys d)) ->
  add_models i name j ms d = d ++ group_items i name j ms.
Proof.
  revert j d. induction ms as [|m ms IH]; intros j d H; cbn.
  - rewrite app_nil_r. reflexivity.
  - rewrite dset_new by (apply H; left; reflexivity). rewrite IH, <- app_assoc; [reflexivity|].
    intros k Hk. rewrite dkeys_app, in_app_iff. intros [Hd|[<-|[]]].
    + exact (H k (or_intror Hk) Hd).
    + pose proof (wf_group_items i name j (m :: ms)) as Hw. inversion Hw; subst. tauto.
Qed.
Lemma add_groups_items i gs mss d : Forall2 (fun a b => fst a = fst b /\ models_of (snd a) = Ok (snd b)) gs mss ->
  (forall k, In k (dkeys (all_items i mss)) -> ~ In k (dkeys d)) ->
  add_groups i gs d = Ok (d ++ all_items i mss).
Proof.
  intros H. revert i d. induction H as [|[n g] [n' ms] gs mss [Hn Hg] H IH]; intros i d Hd; cbn.
  - rewrite app_nil_r. reflexivity.
  - cbn in Hn, Hg. subst n'. rewrite Hg. cbn [rbind]. cbn [all_items] in Hd.
    rewrite add_models_items, IH, <- app_assoc; [reflexivity| |].
    + intros k Hk. rewrite dkeys_app, in_app_iff. intros [H0|H0].
      * apply (Hd k); [|exact H0]. rewrite dkeys_app, in_app_iff. tauto.
      * pose proof (wf_all_items i ((n, ms) :: mss)) as Hw. cbn in Hw. unfold wf_dict in Hw. rewrite dkeys_app in Hw.
        apply in_split in H0. destruct H0 as (l1 & l2 & E). rewrite E in Hw. rewrite <- app_assoc in Hw. cbn in Hw.
        apply NoDup_remove_2 in Hw. apply Hw. rewrite !in_app_iff. tauto.
    + intros k Hk. apply Hd. rewrite dkeys_app, in_app_iff. tauto.
Qed.
Lemma all_items_length i gs : length (all_items i gs) = list_sum (map (fun ng => length (snd ng)) gs).
Proof.
  revert i. induction gs as [|[n ms] gs IH]; intros i; cbn; [reflexivity|]. rewrite app_length, IH. f_equal.
  generalize 0. induction ms; intros j; cbn; congruence.
Qed.
