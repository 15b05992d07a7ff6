(** C89: what a run of the annealing script leaves behind. *)
From Verif Require Import Script Prop_Runs.
Close Scope R_scope.
Open Scope nat_scope.

(** ** C89 A run of the annealing script leaves its results behind
    The property ("the script saves the model, the metrics and, in the configuration of the paper, the
    figure, and ends") is false of the code: it never draws the figure. *)

(** a flag that is given and not empty is on (C67) *)
Definition given (s : option string) : Prop := exists x, s = Some x /\ x <> "".
(** the run asks for figures: resampling, an optimised path, eight targets *)
Definition wants_figure (a : cli) : Prop := given (a_resample a) /\ given (a_optimize_path a) /\ a_num_targets a = Some 8.

(** the file the metrics belong in *)
Definition metrics_path (c : config) : string := ("./metrics/" ++ run_name c ++ "-metric-tuple_S1000_B100-loss-ess-logZhat.pt")%string.

Lemma metrics_path_eq c : metrics_file c = metrics_path c.
Proof. unfold metrics_file, metrics_path. f_equal. Qed.
Lemma given_flag s : bool_flag false s = true <-> given s.
Proof.
  unfold bool_flag, given. destruct s as [x|]; [|split; [discriminate|intros (x & E & _); discriminate]]. rewrite negb_true_iff, String.eqb_neq.
  split; [intros H; exists x; auto|]. intros (y & E & H). congruence.
Qed.
Lemma Ok_inj {A} (x y : A) : Ok x = Ok y -> x = y.
Proof. intros [=]. assumption. Qed.
Lemma plan_config a p : main_plan a = Ok p -> c_resample (p_config p) = bool_flag false (a_resample a) /\
  c_optimize_path (p_config p) = bool_flag false (a_optimize_path a) /\ c_targets (p_config p) = default_to 4 (a_num_targets a).
Proof.
  unfold main_plan. destruct (parse_objective _); cbn [rbind]; [|discriminate]. cbn [c_targets]. destruct (default_to 4 (a_num_targets a)) as [|[|K]] eqn:E; try discriminate.
  intros H. apply Ok_inj in H. subst p. cbn [p_config c_resample c_optimize_path c_targets]. auto.
Qed.
Lemma figure_test a p : main_plan a = Ok p ->
  (c_resample (p_config p) && c_optimize_path (p_config p) && (c_targets (p_config p) =? 8))%bool = true <-> wants_figure a.
Proof.
  intros H. destruct (plan_config a p H) as (-> & -> & ->). rewrite !andb_true_iff, !given_flag, Nat.eqb_eq. unfold wants_figure, default_to.
  destruct (a_num_targets a) as [n|]; [|split; [intros [_ E]; discriminate|intros (_ & _ & E); discriminate]]. split; [intros [[H1 H2] ->]; auto|intros (H1 & H2 & [= ->]); auto].
Qed.
Lemma each_err n k f : 0 < n -> (forall i, exists e, f i = Err e) -> exists e, each n k f = Err e.
Proof. intros Hn Hf. destruct n; [lia|]. cbn. destruct (Hf k) as (e & ->). exists e. reflexivity. Qed.
Lemma plot_nothing K samples lines hist filename : 0 < K -> exists e, plot K samples lines hist filename = ([], Err e).
Proof.
  intros HK. unfold plot. change (global "plt") with (@Ok unit tt). unfold wres.
  destruct (each_err K 0 (fun k => if k <? samples then plot_sample_hist (hist k) else Err IndexError) HK) as (e & E).
  { intros i. destruct (i <? samples); [exists NameError; reflexivity|eauto]. }
  rewrite E. destruct (each K 0 lines) as [[]|e']; cbn; eauto.
Qed.

(** what the directories ask for *)
Definition created (w : world) (path : string) : list act := if w_exists w path then [] else [MakeDir path].

Definition after (a : cli) (smoke : option string) (w : world) : writer unit := match main_plan a with Ok p => run_plan p smoke w | Err e => ([], Err e) end.
Lemma script_split a smoke w : script a smoke w =
  (created w "./weights/" ++ created w "./metrics/" ++ fst (after a smoke w),
   snd (after a smoke w)).
Proof.
  unfold script, after, make_dir, created, wret, wact, wres. destruct (main_plan a) as [p|e].
  - cbn [wbind]. destruct (run_plan p smoke w) as [l r]. destruct (w_exists w "./weights/"), (w_exists w "./metrics/"); reflexivity.
  - destruct (w_exists w "./weights/"), (w_exists w "./metrics/"); reflexivity.
Qed.
Lemma created_only w path x : In x (created w path) -> x = MakeDir path.
Proof. unfold created. destruct (w_exists w path); cbn; intuition. Qed.
Definition model_act (p : plan) : act := if p_train p then SaveModels (run_name (p_config p)) else LoadModels (run_name (p_config p)).
Definition model_res (w : world) (p : plan) : res unit := if p_train p then w_train w p else w_load w p.
Lemma run_plan_eq p smoke w : run_plan p smoke w =
  match model_res w p with
  | Err e => ([], Err e)
  | Ok _ =>
      if bool_flag false smoke then ([model_act p; PrintDone], Ok tt) else
      match w_test w p with
      | Err e => ([model_act p], Err e)
      | Ok n =>
          if (c_resample (p_config p) && c_optimize_path (p_config p) && (c_targets (p_config p) =? 8))%bool
          then let (l, r) := plot (c_targets (p_config p) - 1) n (w_lines w) (w_hist w) (Some (run_name (p_config p))) in
               match r with
               | Ok _ => (model_act p :: SaveMetrics (metrics_path (p_config p)) :: PrintMetrics :: created w "./figures/" ++ l ++ [PrintDone], Ok tt)
               | Err e => (model_act p :: SaveMetrics (metrics_path (p_config p)) :: PrintMetrics :: created w "./figures/" ++ l, Err e)
               end
          else ([model_act p; SaveMetrics (metrics_path (p_config p)); PrintMetrics; PrintDone], Ok tt)
      end
  end.
Proof.
  unfold run_plan, model_res, model_act, make_dir, created, wret, wact, wres. rewrite metrics_path_eq. generalize (metrics_path (p_config p)) as mf. generalize (run_name (p_config p)) as rn. intros rn mf.
  generalize (plot (c_targets (p_config p) - 1)). intros pl. generalize (c_resample (p_config p) && c_optimize_path (p_config p) && (c_targets (p_config p) =? 8))%bool as sp. intros sp.
  destruct (p_train p), (w_train w p) as [[]|e1], (w_load w p) as [[]|e2], (bool_flag false smoke), (w_test w p) as [n|e3], sp; cbn [wbind app]; try reflexivity;
    destruct (pl n (w_lines w) (w_hist w) (Some rn)) as [l [[]|e4]]; destruct (w_exists w "./figures/"); reflexivity.
Qed.

(** A run that should draw the figure never does, and never ends with success, whatever training, the
    evaluation and matplotlib do; a smoke test does not come so far. *)
Theorem C89_figure_refuted : forall a smoke w log r, wants_figure a -> ~ given smoke -> script a smoke w = (log, r) ->
  (exists e, r = Err e) /\ ~ In PrintDone log /\ forall path, ~ In (SaveFigure path) log.
Proof.
  intros a smoke w log r Hw Hs H. rewrite script_split in H.
  assert (G : exists l e, after a smoke w = (l, Err e) /\ ~ In PrintDone l /\ forall path, ~ In (SaveFigure path) l).
  { unfold after. destruct (main_plan a) as [p|e] eqn:Ep; [|exists [], e; cbn; auto]. assert (F := proj2 (figure_test a p Ep) Hw).
    assert (E8 : c_targets (p_config p) = 8) by (apply andb_true_iff in F; destruct F as [_ F]; apply Nat.eqb_eq, F).
    assert (Es : bool_flag false smoke = false) by (destruct (bool_flag false smoke) eqn:E; [exfalso; apply Hs, given_flag, E|reflexivity]).
    assert (M : model_act p <> PrintDone /\ forall path, model_act p <> SaveFigure path) by (unfold model_act; destruct (p_train p); split; [|intros path| |intros path]; discriminate).
    destruct M as [M1 M2]. rewrite run_plan_eq, F, Es. destruct (model_res w p) as [[]|e]; [|exists [], e; cbn; auto].
    destruct (w_test w p) as [n|e].
    2:{ exists [model_act p], e. split; [reflexivity|]. split; [|intros path]; cbn [In]; intros [E|[]]; [exact (M1 E)|exact (M2 path E)]. }
    destruct (plot_nothing (c_targets (p_config p) - 1) n (w_lines w) (w_hist w) (Some (run_name (p_config p)))) as (e & E); [lia|]. rewrite E. do 2 eexists. split; [reflexivity|].
    rewrite app_nil_r. split; [|intros path]; cbn [In]; intros [Ea|[Ea|[Ea|Ea]]]; try discriminate; try (exact (M1 Ea)); try (exact (M2 path Ea)); apply created_only in Ea; discriminate. }
  destruct G as (l & e & E & G1 & G2). rewrite E in H. cbn [fst snd] in H. injection H as <- <-. split; [eauto|]. split; [|intros path]; rewrite !in_app_iff; intros [Hin|[Hin|Hin]]; try (apply created_only in Hin; discriminate);
    [exact (G1 Hin)|exact (G2 path Hin)].
Qed.
Print Assumptions C89_figure_refuted.

(** A run that should draw the figure and whose training and evaluation succeed has saved the
    model and the metrics when it fails. *)
Theorem C89_before_figure : forall a w p n,
  wants_figure a -> main_plan a = Ok p -> p_train p = true -> w_train w p = Ok tt -> w_test w p = Ok n -> 7 <= n -> (forall k, w_lines w k = Ok tt) ->
  script a None w = (created w "./weights/" ++ created w "./metrics/" ++
    [SaveModels (run_name (p_config p)); SaveMetrics (metrics_path (p_config p)); PrintMetrics] ++ created w "./figures/", Err NameError).
Proof.
  intros a w p n Hw Ep Et Ht Hn Hle Hl. rewrite script_split. unfold after. rewrite Ep, run_plan_eq. unfold model_res, model_act. rewrite Et, Ht, Hn. assert (F := proj2 (figure_test a p Ep) Hw). rewrite F.
  assert (E8 : c_targets (p_config p) = 8) by (apply andb_true_iff in F; destruct F as [_ F]; apply Nat.eqb_eq, F). rewrite E8. cbn [bool_flag].
  assert (P : forall f, plot (8 - 1) n (w_lines w) (w_hist w) f = ([], Err NameError)).
  { intros f. unfold plot. change (global "plt") with (@Ok unit tt). unfold wres. cbn [each Nat.sub]. rewrite !Hl. destruct (Nat.ltb_spec 0 n) as [L|L]; [reflexivity|lia]. }
  rewrite P. cbn [fst snd app]. rewrite app_nil_r. reflexivity.
Qed.
Print Assumptions C89_before_figure.

(** Every other run ends with success exactly when training or loading, and the evaluation, succeed.  It has
    then saved or loaded the model under the name of its configuration and, unless it is a smoke
    test, saved and printed the metrics. *)
Theorem C89_results : forall a smoke w, ~ wants_figure a \/ given smoke ->
  forall log, script a smoke w = (log, Ok tt) <-> exists p, main_plan a = Ok p /\
    (if p_train p then w_train w p = Ok tt else w_load w p = Ok tt) /\
    (given smoke \/ exists n, w_test w p = Ok n) /\
    exists results, log = created w "./weights/" ++ created w "./metrics/" ++
      (if p_train p then SaveModels (run_name (p_config p)) else LoadModels (run_name (p_config p))) :: results ++ [PrintDone] /\
      (given smoke -> results = []) /\ (~ given smoke -> results = [SaveMetrics (metrics_path (p_config p)); PrintMetrics]).
Proof.
  intros a smoke w Hw log. rewrite script_split. unfold after. destruct (main_plan a) as [p|e] eqn:Ep.
  2:{ split; [intros H; discriminate|intros (p & H & _); discriminate]. }
  assert (MR : (if p_train p then w_train w p = Ok tt else w_load w p = Ok tt) <-> model_res w p = Ok tt) by (unfold model_res; destruct (p_train p); reflexivity).
  assert (X : (exists p', Ok p = Ok p' /\ (if p_train p' then w_train w p' = Ok tt else w_load w p' = Ok tt) /\ (given smoke \/ exists n, w_test w p' = Ok n) /\
    exists results, log = created w "./weights/" ++ created w "./metrics/" ++
      (if p_train p' then SaveModels (run_name (p_config p')) else LoadModels (run_name (p_config p'))) :: results ++ [PrintDone] /\
      (given smoke -> results = []) /\ (~ given smoke -> results = [SaveMetrics (metrics_path (p_config p')); PrintMetrics])) <->
    model_res w p = Ok tt /\ (given smoke \/ exists n, w_test w p = Ok n) /\
    exists results, log = created w "./weights/" ++ created w "./metrics/" ++ model_act p :: results ++ [PrintDone] /\
      (given smoke -> results = []) /\ (~ given smoke -> results = [SaveMetrics (metrics_path (p_config p)); PrintMetrics])).
  { split; [intros (p' & E & G); apply Ok_inj in E; subst p'; rewrite <- MR; exact G|intros G; exists p; split; [reflexivity|]; rewrite MR; exact G]. }
  rewrite X. clear X MR. rewrite run_plan_eq. destruct (model_res w p) as [[]|e]; [|split; [intros H; discriminate|intros (H & _); discriminate]].
  destruct (bool_flag false smoke) eqn:Es.
  - apply given_flag in Es. cbn [fst snd]. split.
    + intros H. injection H as <-. split; [reflexivity|]. split; [left; exact Es|]. exists []. split; [reflexivity|]. split; [reflexivity|intros H; contradiction].
    + intros (_ & _ & results & -> & R & _). rewrite (R Es). reflexivity.
  - assert (Ns : ~ given smoke) by (intros G; apply given_flag in G; congruence). destruct Hw as [Hw|Hw]; [|contradiction].
    assert (F : (c_resample (p_config p) && c_optimize_path (p_config p) && (c_targets (p_config p) =? 8))%bool = false).
    { apply not_true_is_false. intros E. apply Hw, (figure_test a p Ep), E. }
    rewrite F. destruct (w_test w p) as [n|e].
    + cbn [fst snd]. split.
      * intros H. injection H as <-. split; [reflexivity|]. split; [right; eauto|]. eexists [_; _]. split; [reflexivity|]. split; [intros H; contradiction|reflexivity].
      * intros (_ & _ & results & -> & _ & R). rewrite (R Ns). reflexivity.
    + split; [intros H; discriminate|]. intros (_ & [G|(n & G)] & _); [contradiction|discriminate].
Qed.
Print Assumptions C89_results.

(** Runs that differ in their configuration write their metrics to different files. *)
Lemma append_inj_l (x y z : string) : (x ++ y)%string = (x ++ z)%string -> y = z.
Proof. induction x as [|c x IH]; cbn; [auto|]. intros [= H]. exact (IH H). Qed.
Lemma append_inj_r (x y z : string) : (x ++ z)%string = (y ++ z)%string -> x = y.
Proof.
  assert (Len : forall a b : string, String.length (a ++ b) = String.length a + String.length b) by (induction a as [|c a IH]; intros b; cbn; [reflexivity|rewrite IH; reflexivity]).
  revert y. induction x as [|c x IH]; intros [|d y] H; cbn in H; auto.
  - exfalso. apply (f_equal String.length) in H. cbn in H. rewrite Len in H. lia.
  - exfalso. apply (f_equal String.length) in H. cbn in H. rewrite Len in H. lia.
  - injection H as -> H. f_equal. exact (IH y H).
Qed.
Theorem C89_metrics_apart : forall c c', metrics_path c = metrics_path c' -> c = c'.
Proof. intros c c' H. apply C66_run_name. unfold metrics_path in H. apply append_inj_l in H. eapply append_inj_r, H. Qed.
Print Assumptions C89_metrics_apart.

(** the configuration of the paper, and one without figures; everything succeeds *)
Definition fine : world := mkWorld (fun _ => false) (fun _ => Ok tt) (fun _ => Ok tt) (fun _ => Ok 7) (fun _ => Ok tt) (fun _ => Ok tt).
Definition paper (K : nat) : cli := mkCli (Some "nvo_rkl") (Some 1) (Some "True") (Some 100) (Some K) None (Some "True") None.
Example C89_case :
  wants_figure (paper 8) /\ ~ wants_figure (paper 4) /\ ~ given None /\
  script (paper 8) None fine = ([MakeDir "./weights/"; MakeDir "./metrics/"; SaveModels "nvirs_nvo_rkl_S288_K8_I100_seed1";
    SaveMetrics "./metrics/nvirs_nvo_rkl_S288_K8_I100_seed1-metric-tuple_S1000_B100-loss-ess-logZhat.pt"; PrintMetrics; MakeDir "./figures/"], Err NameError) /\
  script (paper 4) None fine = ([MakeDir "./weights/"; MakeDir "./metrics/"; SaveModels "nvirs_nvo_rkl_S288_K4_I100_seed1";
    SaveMetrics "./metrics/nvirs_nvo_rkl_S288_K4_I100_seed1-metric-tuple_S1000_B100-loss-ess-logZhat.pt"; PrintMetrics; PrintDone], Ok tt).
Proof.
  split; [split; [|split; [|reflexivity]]; exists "True"; (split; [reflexivity|discriminate])|]. split; [intros (_ & _ & E); discriminate|].
  split; [intros (x & E & _); discriminate|]. split; vm_compute; reflexivity.
Qed.
