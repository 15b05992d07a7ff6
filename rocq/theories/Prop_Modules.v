(** C78: what the optimizers and the checkpoints get. *)
From Coq Require Import Permutation.
From Verif Require Import Base Utils Modules.
Open Scope nat_scope.

(** ** C78 Every parameter is trained, once *)
(** the parameters that appear in a module, with repetitions *)
Notation ids m := (map snd (state_dict m)).

Lemma existsb_In x l : existsb (Nat.eqb x) l = true <-> In x l.
Proof. rewrite existsb_exists. split; [intros (y & H & E); apply Nat.eqb_eq in E; subst; exact H|intros H; exists x; split; [exact H|apply Nat.eqb_refl]]. Qed.
Lemma firsts_spec l : forall seen, NoDup (firsts seen l) /\ forall x, In x (firsts seen l) <-> In x l /\ ~ In x seen.
Proof.
  induction l as [|a l IH]; intros seen; cbn [firsts]; [split; [constructor|]; intros x; cbn; tauto|].
  destruct (existsb (Nat.eqb a) seen) eqn:E.
  - apply existsb_In in E. destruct (IH seen) as [H1 H2]. split; [exact H1|]. intros x. rewrite H2. cbn. split; [tauto|]. intros [[->|H] Hn]; [contradiction|tauto].
  - assert (En : ~ In a seen) by (rewrite <- existsb_In, E; discriminate). destruct (IH (a :: seen)) as [H1 H2]. split.
    + constructor; [|exact H1]. rewrite H2. cbn. tauto.
    + intros x. cbn [In]. rewrite H2. cbn [In]. destruct (Nat.eq_dec a x) as [->|N]; tauto.
Qed.
Lemma parameters_spec m : NoDup (parameters m) /\ forall x, In x (parameters m) <-> In x (ids m).
Proof. destruct (firsts_spec (ids m) []) as [H1 H2]. split; [exact H1|]. intros x. unfold parameters. rewrite H2. cbn. tauto. Qed.

Lemma nodup_app {A} (l l' : list A) : NoDup l -> NoDup l' -> (forall x, In x l -> ~ In x l') -> NoDup (l ++ l').
Proof.
  intros H H' Hd. induction H as [|a l Ha Hl IH]; [exact H'|]. cbn. constructor.
  - rewrite in_app_iff. intros [F|F]; [contradiction|]. apply (Hd a); [left; reflexivity|exact F].
  - apply IH. intros x Hx. apply Hd. right. exact Hx.
Qed.
Lemma add_groups_ok gs : forall seen r, add_groups seen gs = Ok r ->
  r = gs /\ ((forall g, In g gs -> NoDup g) -> NoDup (concat gs)) /\ forall x, In x (concat gs) -> ~ In x seen.
Proof.
  induction gs as [|g gs IH]; intros seen r H; cbn [add_groups] in H; [injection H as <-; split; [reflexivity|]; split; [constructor|intros x []]|].
  destruct (existsb _ g) eqn:E; [discriminate|]. destruct (add_groups (g ++ seen) gs) as [r'|] eqn:Er; cbn [rmap] in H; [|discriminate]. injection H as <-.
  destruct (IH _ _ Er) as (-> & Hn & Hd). cbn [concat]. split; [reflexivity|].
  assert (Hg : forall x, In x g -> ~ In x seen).
  { intros x Hx Hs. assert (F : existsb (fun x => existsb (Nat.eqb x) seen) g = true) by (apply existsb_exists; exists x; split; [exact Hx|apply existsb_In, Hs]). congruence. }
  split.
  - intros Hall. apply nodup_app; [apply Hall; left; reflexivity|apply Hn; intros; apply Hall; right; assumption|].
    intros x Hx Hc. apply (Hd x Hc). apply in_or_app. left. exact Hx.
  - intros x Hx. apply in_app_or in Hx. destruct Hx as [Hx|Hx]; [apply Hg, Hx|]. intros Hs. apply (Hd x Hx). apply in_or_app. right. exact Hs.
Qed.
Lemma add_groups_err gs : forall seen e, add_groups seen gs = Err e ->
  e = ValueError /\ exists before g after x, gs = before ++ g :: after /\ In x g /\ (In x seen \/ In x (concat before)).
Proof.
  induction gs as [|g gs IH]; intros seen e H; cbn [add_groups] in H; [discriminate|]. destruct (existsb _ g) eqn:E.
  - injection H as <-. split; [reflexivity|]. apply existsb_exists in E. destruct E as (x & Hx & Hs). apply existsb_In in Hs.
    exists [], g, gs, x. auto.
  - destruct (add_groups (g ++ seen) gs) as [r'|e'] eqn:Er; cbn [rmap] in H; [discriminate|]. injection H as <-.
    destruct (IH _ _ Er) as (He & before & g' & after & x & -> & Hx & Hs). split; [exact He|]. exists (g :: before), g', after, x. split; [reflexivity|]. split; [exact Hx|].
    cbn [concat]. rewrite in_app_iff in *. tauto.
Qed.

(** When adam accepts the modules, every parameter of every module is in one group, and in one only. *)
Theorem C78_adam : forall models gs, adam models = Ok gs ->
  NoDup (concat gs) /\ forall x, In x (concat gs) <-> exists m key, In m models /\ In (key, x) (state_dict m).
Proof.
  intros models gs H. assert (E : add_groups [] (map parameters models) = Ok gs) by (unfold adam in H; destruct (map parameters models); [discriminate|exact H]).
  destruct (add_groups_ok _ _ _ E) as (-> & Hn & _). split.
  - apply Hn. intros g Hg. apply in_map_iff in Hg. destruct Hg as (m & <- & _). apply parameters_spec.
  - intros x. rewrite in_concat. split.
    + intros (g & Hg & Hx). apply in_map_iff in Hg. destruct Hg as (m & <- & Hm). apply parameters_spec in Hx. apply in_map_iff in Hx.
      destruct Hx as ([key y] & <- & Hk). exists m, key. split; assumption.
    + intros (m & key & Hm & Hk). exists (parameters m). split; [apply in_map, Hm|]. apply parameters_spec. apply in_map_iff. exists (key, x). split; [reflexivity|exact Hk].
Qed.
Print Assumptions C78_adam.

(** It refuses them exactly when there are none, or two of them share a parameter. *)
Theorem C78_adam_refuses : forall models,
  (adam models = Err ValueError <-> models = [] \/
     exists before m between m' after x, models = before ++ m :: between ++ m' :: after /\ In x (ids m) /\ In x (ids m')) /\
  (adam models <> Err ValueError -> adam models = Ok (map parameters models)).
Proof.
  intros models.
  assert (A : adam models = Err ValueError <-> models = [] \/
     exists before m between m' after x, models = before ++ m :: between ++ m' :: after /\ In x (ids m) /\ In x (ids m')).
  { split.
    - intros H. destruct models as [|m0 ms]; [left; reflexivity|]. right. unfold adam in H. cbn [map] in H.
      destruct (add_groups_err _ _ _ H) as (_ & before & g & after & x & E & Hx & [[]|Hs]). change (parameters m0 :: map parameters ms) with (map parameters (m0 :: ms)) in E.
      revert E. generalize (m0 :: ms). clear H m0 ms. intros ms E.
      apply map_eq_app in E. destruct E as (l1 & l2 & -> & <- & E). destruct l2 as [|m' l2]; [discriminate|]. injection E as <- <-.
      rewrite in_concat in Hs. destruct Hs as (g' & Hg' & Hs). apply in_map_iff in Hg'. destruct Hg' as (m & <- & Hm). apply in_split in Hm. destruct Hm as (b & bt & ->).
      exists b, m, bt, m', l2, x. rewrite <- app_assoc. cbn. split; [reflexivity|]. split; apply parameters_spec; assumption.
    - intros [->|(before & m & between & m' & after & x & -> & Hm & Hm')]; [reflexivity|].
      assert (E : forall ms, ms <> [] -> adam ms = add_groups [] (map parameters ms)) by (intros [|? ?] ?; [contradiction|reflexivity]).
      rewrite E by (intros F; apply app_eq_nil in F; destruct F; discriminate). destruct (add_groups [] _) as [r|e] eqn:Er; [exfalso|f_equal; apply (add_groups_err _ _ _ Er)].
      destruct (add_groups_ok _ _ _ Er) as (_ & Hn & _). rewrite map_app in Hn. cbn [map] in Hn. rewrite map_app in Hn. cbn [map] in Hn.
      assert (Hd : NoDup (concat (map parameters before ++ parameters m :: map parameters between ++ parameters m' :: map parameters after))).
      { apply Hn. intros g Hg. assert (P : exists mm, g = parameters mm).
        { apply in_app_or in Hg. destruct Hg as [Hg|[<-|Hg]]; [apply in_map_iff in Hg; destruct Hg as (? & <- & _); eauto|eauto|].
          apply in_app_or in Hg. destruct Hg as [Hg|[<-|Hg]]; [apply in_map_iff in Hg; destruct Hg as (? & <- & _); eauto|eauto|apply in_map_iff in Hg; destruct Hg as (? & <- & _); eauto]. }
        destruct P as (mm & ->). apply parameters_spec. }
      rewrite concat_app in Hd. cbn [concat] in Hd. rewrite concat_app in Hd. cbn [concat] in Hd.
      apply parameters_spec in Hm, Hm'. apply in_split in Hm. destruct Hm as (u & v & Em). rewrite Em in Hd.
      rewrite <- !app_assoc in Hd. cbn in Hd. rewrite app_assoc in Hd. apply NoDup_remove_2 in Hd. apply Hd. rewrite !in_app_iff. tauto. }
  split; [exact A|]. intros H. destruct models as [|m ms]; [contradiction H; reflexivity|]. unfold adam in *. cbn [map] in *.
  destruct (add_groups [] _) as [r|e] eqn:Er; [|destruct (add_groups_err _ _ _ Er) as [-> _]; contradiction]. f_equal. apply (add_groups_ok _ _ _ Er).
Qed.
Print Assumptions C78_adam_refuses.

(** *** Construction *)
Lemma mmap_spec {A} (f : A -> mk module) k : (forall a n, snd (f a n) = k + n /\ ids (fst (f a n)) = seq n k) ->
  forall l n, snd (mmap f l n) = k * length l + n /\ concat (map (fun m => ids m) (fst (mmap f l n))) = seq n (k * length l) /\
    (forall m, In m (fst (mmap f l n)) -> exists a n', m = fst (f a n')).
Proof.
  intros Hf. induction l as [|a l IH]; intros n; cbn [mmap length].
  - rewrite Nat.mul_0_r. cbn. split; [reflexivity|]. split; [reflexivity|intros m []].
  - unfold mbind, mret. destruct (f a n) as [b n1] eqn:Eb. destruct (mmap f l n1) as [bs n2] eqn:Ebs.
    specialize (Hf a n). rewrite Eb in Hf. cbn [fst snd] in Hf. destruct Hf as [-> Hb]. specialize (IH (k + n)). rewrite Ebs in IH. cbn [fst snd] in IH |- *.
    destruct IH as (-> & Hc & Hm). split; [lia|]. split.
    + cbn [map concat]. rewrite Hb, Hc. replace (k * S (length l)) with (k + k * length l) by lia. rewrite seq_app. f_equal. f_equal. lia.
    + intros m [<-|Hin]; [exists a, n; rewrite Eb; reflexivity|apply Hm, Hin].
Qed.
Lemma kernel_spec n : snd (kernel n) = 6 + n /\ ids (fst (kernel n)) = seq n 6.
Proof. split; reflexivity. Qed.
Lemma tempered_spec o n : snd (tempered o (Module [] []) (Module [] []) n) = (if o then 1 else 0) + n /\
  ids (fst (tempered o (Module [] []) (Module [] []) n)) = seq n (if o then 1 else 0).
Proof. destruct o; split; reflexivity. Qed.

(** all modules together hold each parameter of an interval once: adam accepts them *)
Lemma adam_interval models n k : models <> [] -> concat (map (fun m => ids m) models) = seq n k ->
  exists gs, adam models = Ok gs /\ NoDup (concat gs) /\ forall x, In x (concat gs) <-> n <= x < n + k.
Proof.
  intros Hne H. destruct (C78_adam_refuses models) as [A B].
  assert (E : adam models = Ok (map parameters models)).
  { apply B. rewrite A. intros [F|(b & m & bt & m' & af & x & -> & Hm & Hm')]; [contradiction|].
    assert (N : NoDup (seq n k)) by apply seq_NoDup. rewrite <- H in N. rewrite map_app in N. cbn [map] in N. rewrite map_app in N. cbn [map] in N.
    rewrite concat_app in N. cbn [concat] in N. rewrite concat_app in N. cbn [concat] in N. apply in_split in Hm. destruct Hm as (u & v & Em). rewrite Em in N.
    rewrite <- !app_assoc in N. cbn in N. rewrite app_assoc in N. apply NoDup_remove_2 in N. apply N. rewrite !in_app_iff. tauto. }
  exists (map parameters models). split; [exact E|]. destruct (C78_adam _ _ E) as [Hn Hi]. split; [exact Hn|]. intros x. rewrite Hi.
  rewrite <- in_seq, <- H, in_concat. split.
  - intros (m & key & Hm & Hk). exists (ids m). split; [apply in_map_iff; exists m; auto|]. apply in_map_iff. exists (key, x). auto.
  - intros (l & Hl & Hx). apply in_map_iff in Hl. destruct Hl as (m & <- & Hm). apply in_map_iff in Hx. destruct Hx as ([key y] & <- & Hk). exists m, key. auto.
Qed.

Lemma paper_spec K opt n : let '(targets, forwards, reverses, n') := paper_model K opt n in
  concat (map (fun m => ids m) (targets ++ forwards ++ reverses)) = seq n ((K - 1) * 12 + (if opt then K - 2 else 0)) /\
  n' = n + ((K - 1) * 12 + (if opt then K - 2 else 0)) /\
  forall m, In m (targets ++ forwards ++ reverses) -> m = Module [] [] \/ (exists k, m = fst (tempered opt (Module [] []) (Module [] []) k)) \/ exists k, m = fst (kernel k).
Proof.
  unfold paper_model, anneal_between, fixed_normal, ring_gmm. unfold mbind at 1 2. unfold mret at 1 2. cbv beta iota. unfold mbind, mret.
  destruct (mmap_spec (fun _ : nat => tempered opt (Module [] []) (Module [] [])) (if opt then 1 else 0) (fun _ => tempered_spec opt) (seq 1 (K - 2)) n) as (T1 & T2 & T3).
  destruct (mmap _ (seq 1 (K - 2)) n) as [path n1]. cbn [fst snd] in *.
  destruct (mmap_spec (fun _ : nat => kernel) 6 (fun _ => kernel_spec) (seq 0 (K - 1)) n1) as (F1 & F2 & F3).
  destruct (mmap _ (seq 0 (K - 1)) n1) as [fw n2]. cbn [fst snd] in *.
  destruct (mmap_spec (fun _ : nat => kernel) 6 (fun _ => kernel_spec) (seq 0 (K - 1)) n2) as (R1 & R2 & R3).
  destruct (mmap _ (seq 0 (K - 1)) n2) as [rv n3]. cbn [fst snd] in *. rewrite !seq_length in *. subst n1 n2 n3. split; [|split].
  - rewrite !map_app, !concat_app. cbn [map concat]. rewrite map_app, concat_app, T2, F2, R2. cbn [map concat]. change (ids (Module [] [])) with (@nil nat).
    cbn [app]. rewrite !app_nil_r.
    replace ((if opt then 1 else 0) * (K - 2) + n) with (n + (if opt then 1 else 0) * (K - 2)) by lia.
    replace (6 * (K - 1) + (n + (if opt then 1 else 0) * (K - 2))) with (n + ((if opt then 1 else 0) * (K - 2) + 6 * (K - 1))) by lia.
    rewrite app_assoc. rewrite <- seq_app. rewrite <- seq_app. f_equal. destruct opt; lia.
  - destruct opt; lia.
  - intros m [<-|Hm]; [left; reflexivity|]. rewrite !in_app_iff in Hm. cbn [In] in Hm. destruct Hm as [[Hm|[<-|[]]]|[Hm|Hm]].
    + right. left. destruct (T3 m Hm) as (_ & k & ->). eauto.
    + left. reflexivity.
    + right. right. destruct (F3 m Hm) as (_ & k & ->). eauto.
    + right. right. destruct (R3 m Hm) as (_ & k & ->). eauto.
Qed.

(** The annealing experiment: the optimizer of [nvi_train] has every parameter that was created by
    the construction of the models ([n, ..., n' - 1]), and each of them once.  There are six in each
    kernel, and one in each intermediate target if the path is optimized. *)
Theorem C78_annealing : forall K optimize n, 2 <= K ->
  let '(models, n') := paper_model K optimize n in
  exists gs, nvi_optimizer models = Ok gs /\ NoDup (concat gs) /\ (forall x, In x (concat gs) <-> n <= x < n') /\
    n' = n + 2 * 6 * (K - 1) + (if optimize then K - 2 else 0).
Proof.
  intros K opt n HK. pose proof (paper_spec K opt n) as H. destruct (paper_model K opt n) as [[[ta fw] rv] n'] eqn:E. cbn zeta. destruct H as (H1 & -> & _).
  assert (Hne : ta ++ fw ++ rv <> []).
  { intros F. rewrite F in H1. cbn in H1. destruct K as [|[|K]]; [lia|lia|]. cbn in H1. discriminate. }
  destruct (adam_interval _ n _ Hne H1) as (gs & Hg & Hn & Hx). exists gs. cbn [nvi_optimizer]. split; [exact Hg|]. split; [exact Hn|]. split; [exact Hx|]. lia.
Qed.
Print Assumptions C78_annealing.

(** The APG experiment: the three networks have 24 parameters, all are trained, each once: although the
    encoder of the positions uses the decoder, the decoder is in one group only. *)
Theorem C78_apg : forall n, let '(models, n') := init_models n in
  exists gs, apg_optimizer models = Ok gs /\ NoDup (concat gs) /\ (forall x, In x (concat gs) <-> n <= x < n') /\ n' = n + 24.
Proof.
  intros n. destruct (init_models n) as [models n'] eqn:E. assert (E' : (models, n') = init_models n) by (symmetry; exact E). vm_compute in E'. injection E' as -> ->.
  destruct (adam_interval (map snd (fst (init_models n))) n 24) as (gs & Hg & Hn & Hx); [discriminate|reflexivity|].
  exists gs. split; [exact Hg|]. split; [exact Hn|]. split; [|lia]. intros x. rewrite Hx. lia.
Qed.
Print Assumptions C78_apg.

(** Checkpoints: in each of these models, no two entries of the state dict have the same name, and no
    parameter has two names: each parameter is in the checkpoint of one model, under one name. *)
Theorem C78_checkpoints : forall n,
  (forall K optimize m, let '(targets, forwards, reverses) := fst (paper_model K optimize n) in In m (targets ++ forwards ++ reverses) ->
     NoDup (map fst (state_dict m)) /\ NoDup (ids m)) /\
  (forall key m, In (key, m) (fst (init_models n)) -> NoDup (map fst (state_dict m)) /\ NoDup (ids m)).
Proof.
  assert (S : forall l : list string, (fix nd l := match l with [] => true | x :: l' => negb (existsb (String.eqb x) l') && nd l' end) l = true -> NoDup l).
  { induction l as [|x l IH]; intros H; [constructor|]. apply andb_true_iff in H. destruct H as [H1 H2]. constructor; [|apply IH, H2].
    intros F. apply negb_true_iff in H1. assert (G : existsb (String.eqb x) l = true) by (apply existsb_exists; exists x; split; [exact F|apply String.eqb_refl]). congruence. }
  intros n. split.
  - intros K opt m. pose proof (paper_spec K opt n) as H. destruct (paper_model K opt n) as [[[ta fw] rv] n']. cbn [fst]. destruct H as (_ & _ & H). intros Hm.
    destruct (H m Hm) as [->|[(k & ->)|(k & ->)]].
    + split; constructor.
    + destruct opt; split; repeat constructor; cbn; intuition discriminate.
    + split; [apply S; reflexivity|]. rewrite (proj2 (kernel_spec k)). apply seq_NoDup.
  - intros key m Hm. change (In (key, m) (fst (init_models n))) in Hm. unfold init_models, mbind, mret in Hm. cbn [fst] in Hm.
    vm_compute in Hm. destruct Hm as [[= <- <-]|[[= <- <-]|[[= <- <-]|[]]]]; (split; [apply S; vm_compute; reflexivity|]).
    + exact (seq_NoDup 6 n).
    + exact (seq_NoDup 10 (6 + n)).
    + exact (seq_NoDup 8 (16 + n)).
Qed.
Print Assumptions C78_checkpoints.

(** If the encoder held the decoder as an attribute, the two would share six parameters, and adam would
    refuse them: [Module [] [("dec", d)]] stands for such an encoder. *)
Example C78_case : forall n, let d := fst (decoder n) in adam [d; Module [] [("dec", d)]] = Err ValueError.
Proof. intros n d. apply C78_adam_refuses. right. exists [], d, [], (Module [] [("dec", d)]), [], n. split; [reflexivity|]. split; left; reflexivity. Qed.
