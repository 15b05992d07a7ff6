(** C66, C67, C68: names and files of the experiments' runs, their command lines, and the training loop. *)
From Coq Require Import Lia Ascii.
From Verif Require Import Runs KeyFacts SpecUtils Thm_Utils Prop_Utils Thm_Annealing Prop_Training.
Open Scope nat_scope.

(** ** C66 Every run has files of its own *)
Lemma no_us n : has_char "_" (show n) = false.
Proof. apply show_no. reflexivity. Qed.
(** different settings, different names *)
Theorem C66_run_name : forall c c', run_name c = run_name c' -> c = c'.
Proof.
  intros [r s o S0 K I seed] [r' s' o' S1 K' I' seed'] H. unfold run_name in H. cbn [c_resample c_optimize_path c_objective c_budget c_targets c_iterations c_seed] in H.
  assert (H1 : r = r' /\ s = s' /\ (objective_name o ++ "_S" ++ show S0 ++ "_K" ++ show K ++ "_I" ++ show I ++ "_seed" ++ show seed
                = objective_name o' ++ "_S" ++ show S1 ++ "_K" ++ show K' ++ "_I" ++ show I' ++ "_seed" ++ show seed')%string).
  { destruct r, s, r', s'; cbn [append] in H; try discriminate; injection H as H; auto. }
  clear H. destruct H1 as (-> & -> & H).
  assert (H1 : o = o' /\ (show S0 ++ "_K" ++ show K ++ "_I" ++ show I ++ "_seed" ++ show seed
                = show S1 ++ "_K" ++ show K' ++ "_I" ++ show I' ++ "_seed" ++ show seed')%string).
  { destruct o, o'; cbn [objective_name append] in H; try discriminate; injection H as H; auto. }
  clear H. destruct H1 as (-> & H). cbn [append] in H.
  apply split_first in H; try apply no_us. destruct H as [H1 H]. apply show_inj in H1. subst S1. injection H as H.
  apply split_first in H; try apply no_us. destruct H as [H1 H]. apply show_inj in H1. subst K'. injection H as H.
  apply split_first in H; try apply no_us. destruct H as [H1 H]. apply show_inj in H1. subst I'. injection H as H.
  apply show_inj in H. subst seed'. reflexivity.
Qed.
Print Assumptions C66_run_name.
Theorem C66_model_version : forall t o s n t' o' s' n',
  model_version t o s n = model_version t' o' s' n' -> (t, o, s, n) = (t', o', s', n').
Proof.
  intros t o s n t' o' s' n' H. unfold model_version in H. cbn [append] in H. injection H as H.
  apply split_first in H; try (apply show_no; reflexivity). destruct H as [H1 H]. apply show_inj in H1. subst t'. injection H as H.
  apply split_first in H; try (apply show_no; reflexivity). destruct H as [H1 H]. apply show_inj in H1. subst o'. injection H as H.
  apply split_first in H; try (apply show_no; reflexivity). destruct H as [H1 H]. apply show_inj in H1. subst s'. injection H as H.
  apply show_inj in H. subst n'. reflexivity.
Qed.
Print Assumptions C66_model_version.

(** a run that saves: its settings, its models, and their states when it saves *)
Record saving (W : Type) : Type := mkSaving { sv_config : config; sv_t : group; sv_f : group; sv_r : group; sv_heap : heap (W := W) }.
Arguments mkSaving {W}. Arguments sv_config {W}. Arguments sv_t {W}. Arguments sv_f {W}. Arguments sv_r {W}. Arguments sv_heap {W}.
Fixpoint save_all {W} (hist : list (saving W)) (f : fs W) : res (fs W) :=
  match hist with
  | [] => Ok f
  | e :: hist' => rbind (save_nvi_model (sv_t e) (sv_f e) (sv_r e) (Some (run_name (sv_config e))) (sv_heap e) f) (save_all hist')
  end.

Lemma components_plain s : has_char "/" s = false -> forall cur, components s cur = [(cur ++ s)%string].
Proof.
  induction s as [|c s IH]; cbn [has_char components]; intros H cur; [rewrite append_nil_r; reflexivity|].
  apply orb_false_elim in H. destruct H as [H1 H2]. rewrite H1, IH by exact H2. rewrite app_assoc_s. reflexivity.
Qed.
Lemma run_name_plain c : has_char "/" (run_name c ++ ".pt") = false.
Proof.
  unfold run_name. destruct c as [r s o S0 K I seed]. cbn [c_resample c_optimize_path c_objective c_budget c_targets c_iterations c_seed].
  rewrite !has_char_app, !show_no by reflexivity. destruct r, s, o; reflexivity.
Qed.
Lemma run_name_starts c : exists x, run_name c = String "n" x.
Proof. eexists. reflexivity. Qed.
Lemma save_path c : normpath ("./weights" ++ "/" ++ (run_name c ++ ".pt")) = ["weights"; (run_name c ++ ".pt")%string].
Proof.
  pose proof (run_name_plain c) as H. destruct (run_name_starts c) as [x E]. rewrite E in *. cbn [append] in *. unfold normpath. cbn -[append has_char].
  cbn [append]. cbn [has_char] in H. apply orb_false_elim in H. destruct H as [_ H]. rewrite components_plain by exact H. reflexivity.
Qed.
Lemma load_path c : normpath ("./weights" ++ "/" ++ ("./" ++ run_name c ++ ".pt")) = ["weights"; (run_name c ++ ".pt")%string].
Proof.
  pose proof (run_name_plain c) as H. destruct (run_name_starts c) as [x E]. rewrite E in *. cbn [append] in *. unfold normpath. cbn -[append has_char].
  cbn [append]. cbn [has_char] in H. apply orb_false_elim in H. destruct H as [_ H]. rewrite components_plain by exact H. reflexivity.
Qed.
Lemma file_inj c c' : ["weights"; (run_name c ++ ".pt")%string] = ["weights"; (run_name c' ++ ".pt")%string] -> c = c'.
Proof.
  intros H0. assert (H : (run_name c ++ ".pt")%string = (run_name c' ++ ".pt")%string) by exact (f_equal (fun l => nth 1 l EmptyString) H0). apply C66_run_name.
  apply (split_last "." "pt" "pt") in H; [apply H|reflexivity|reflexivity].
Qed.

Lemma path_get_hd {V} p (v : V) l : path_get p ((p, v) :: l) = Some v.
Proof. cbn [path_get]. destruct (list_eq_dec _ p p); congruence. Qed.
Lemma path_get_tl {V} p q (v : V) l : p <> q -> path_get p ((q, v) :: l) = path_get p l.
Proof. intros H. cbn [path_get]. destruct (list_eq_dec _ p q); congruence. Qed.

Lemma Ok_inj {A} (a b : A) : Ok a = Ok b -> a = b. Proof. congruence. Qed.
Section Saves.
  Context {W : Type}.
  Notation file c := ["weights"; (run_name c ++ ".pt")%string].
  Lemma save_one t f r c h (fs0 fs1 : fs W) : save_nvi_model t f r (Some (run_name c)) h fs0 = Ok fs1 ->
    exists d, models_as_dict (MSeq [t; f; r]) nvi_names = Ok d /\ path_get (file c) (fs_files fs1) = Some (save_models d h) /\
      forall c', c' <> c -> path_get (file c') (fs_files fs1) = path_get (file c') (fs_files fs0).
  Proof.
    unfold save_nvi_model. destruct (models_as_dict _ _) as [d|e]; cbn [rmap]; [|discriminate]. intros H. apply Ok_inj in H. subst fs1.
    exists d. split; [reflexivity|]. unfold save_models_to. cbn [fs_files]. rewrite save_path. split; [apply path_get_hd|].
    intros c' Hc. rewrite path_get_tl by (intros E; apply file_inj in E; contradiction).
    destruct (dir_exists _ _); reflexivity.
  Qed.
  Lemma save_others hist c : (forall e, In e hist -> sv_config e <> c) -> forall (fs0 fs1 : fs W),
    save_all hist fs0 = Ok fs1 -> path_get (file c) (fs_files fs1) = path_get (file c) (fs_files fs0).
  Proof.
    induction hist as [|e hist IH]; intros Hc fs0 fs1 H; cbn [save_all] in H; [congruence|].
    destruct (save_nvi_model _ _ _ _ _ _) as [fs'|] eqn:E; cbn [rbind] in H; [|discriminate].
    rewrite (IH (fun e' He => Hc e' (or_intror He)) _ _ H).
    apply save_one in E. destruct E as (_ & _ & _ & E). apply E. intros ->. exact (Hc e (or_introl eq_refl) eq_refl).
  Qed.
  Lemma save_all_app h1 h2 (fs0 : fs W) : save_all (h1 ++ h2) fs0 = rbind (save_all h1 fs0) (save_all h2).
  Proof. revert fs0. induction h1 as [|e h1 IH]; intros fs0; cbn [app save_all]; [reflexivity|]. destruct (save_nvi_model _ _ _ _ _ _); cbn [rbind]; [apply IH|reflexivity]. Qed.
End Saves.

Lemma map_fst_combine {A B} (a : list A) : forall b : list B, length a = length b -> map fst (combine a b) = a.
Proof. induction a as [|x a IH]; intros [|y b] H; cbn in *; try discriminate; [reflexivity|]. rewrite IH by congruence. reflexivity. Qed.
Lemma seq_names gs names l : named (MSeq gs) names l -> map fst l = names.
Proof.
  intros H. inversion H; subst. assert (length gs = length mss) by (clear - H2; induction H2; cbn; congruence). rewrite map_fst_combine; [reflexivity|congruence].
Qed.
(** After any history of runs that saved their models, loading under the settings [c] restores
    the models of the last run with these settings, whatever other runs saved before and
    after; the models loaded into may be new ones, grouped in the same way. *)
Theorem C66_last_checkpoint : forall (W : Type) (fits : W -> W -> bool) (before after : list (saving W)) (e : saving W)
    (targets forwards reverses : group) gs gs' (h2 : heap) (f0 f : fs W),
  save_all (before ++ e :: after) f0 = Ok f ->
  (forall e', In e' after -> sv_config e' <> sv_config e) ->
  named (MSeq [sv_t e; sv_f e; sv_r e]) nvi_names gs -> named (MSeq [targets; forwards; reverses]) nvi_names gs' ->
  (forall i j m', model_at gs' i j m' -> exists m, model_at gs i j m) ->
  (forall i j m m', model_at gs i j m -> model_at gs' i j m' ->
     wf_dict (sv_heap e m) /\ loadable fits (h2 m') (sv_heap e m) /\ loadable fits (sv_heap e m) (sv_heap e m)) ->
  (forall i j i' j' m1 m2 m', model_at gs i j m1 -> model_at gs i' j' m2 ->
     model_at gs' i j m' -> model_at gs' i' j' m' -> sv_heap e m1 = sv_heap e m2) ->
  exists h3, load_nvi_model fits targets forwards reverses (Some (run_name (sv_config e))) f h2 = (h3, Ok tt) /\
    (forall i j m m', model_at gs i j m -> model_at gs' i j m' -> h3 m' = sv_heap e m) /\
    (forall m', (forall i j, ~ model_at gs' i j m') -> h3 m' = h2 m').
Proof.
  intros W fits before after e t' f' r' gs gs' h2 f0 f Hs Ho Hn Hn' Hpos Hload Hshare.
  rewrite save_all_app in Hs. destruct (save_all before f0) as [f1|] eqn:E1; cbn [rbind] in Hs; [|discriminate].
  cbn [save_all] in Hs. destruct (save_nvi_model _ _ _ _ _ f1) as [f2|] eqn:E2; cbn [rbind] in Hs; [|discriminate].
  apply save_one in E2. destruct E2 as (d & Ed & Ep & _).
  rewrite <- (save_others after (sv_config e) Ho _ _ Hs) in Ep.
  destruct (models_as_dict (MSeq [t'; f'; r']) nvi_names) as [d'|] eqn:Ed'.
  2:{ exfalso. rewrite (named_items _ _ _ Hn') in Ed'. discriminate. }
  assert (Hnm : map fst gs' = map fst gs).
  { rewrite (seq_names _ _ _ Hn'), (seq_names _ _ _ Hn). reflexivity. }
  destruct (C39_restore W fits _ _ gs _ _ gs' d d' (sv_heap e) h2 Hn Hn' Hnm Ed Ed' Hpos Hload Hshare) as (h3 & H3 & H4).
  exists h3. split; [|exact H4]. unfold load_nvi_model. rewrite Ed'. unfold load_models_from. rewrite load_path, Ep. exact H3.
Qed.
Print Assumptions C66_last_checkpoint.
(** settings that were never saved are not found *)
Theorem C66_never_saved : forall (W : Type) (fits : W -> W -> bool) (hist : list (saving W)) (c : config)
    (targets forwards reverses : group) gs (h2 : heap) (dirs : list (list string)) (f : fs W),
  save_all hist (mkFS dirs []) = Ok f -> (forall e, In e hist -> sv_config e <> c) ->
  named (MSeq [targets; forwards; reverses]) nvi_names gs ->
  load_nvi_model fits targets forwards reverses (Some (run_name c)) f h2 = (h2, Err FileNotFoundError).
Proof.
  intros W fits hist c t f r gs h2 dirs fsn Hs Ho Hn. apply (save_others hist c Ho) in Hs. cbn [fs_files path_get] in Hs.
  unfold load_nvi_model. rewrite (named_items _ _ _ Hn). unfold load_models_from. rewrite load_path, Hs. reflexivity.
Qed.
Print Assumptions C66_never_saved.

(** two runs that differ only in the seed, into a directory without weights; the first one is loaded into new models *)
Definition example_config (seed : nat) : config := mkConfig true false NvoRkl 288 4 100 seed.
Definition example_saving (seed v : nat) : saving nat :=
  mkSaving (example_config seed) (GSeq [1]) (GSeq [2]) (GSeq [3]) (fun m => [("w", v + m)]).
Example C66_case :
  run_name (example_config 11) = "nvir_nvo_rkl_S288_K4_I100_seed11" /\
  exists f, save_all [example_saving 1 10; example_saving 11 20] (mkFS [] []) = Ok f /\ dir_exists ["weights"] f = true /\
    named (MSeq [GSeq [1]; GSeq [2]; GSeq [3]]) nvi_names [("targets", [1]); ("forwards", [2]); ("reverses", [3])] /\
    let '(h, r) := load_nvi_model (fun _ _ => true) (GSeq [4]) (GSeq [5]) (GSeq [6]) (Some (run_name (example_config 1))) f (fun _ => [("w", 0)]) in
    r = Ok tt /\ h 5 = [("w", 12)] /\ h 2 = [("w", 0)].
Proof.
  split; [reflexivity|]. eexists. split; [vm_compute; reflexivity|]. split; [reflexivity|]. split.
  - change [("targets", [1]); ("forwards", [2]); ("reverses", [3])] with (combine nvi_names [[1]; [2]; [3]]).
    apply named_seq; [reflexivity|]. repeat constructor.
  - vm_compute. auto.
Qed.

(** ** C67 The command line
    The property ("a flag given as False is off; the sampler uses the sample budget given; ...")
    is false of the code. *)
(** a flag that is given is on unless it is given as the empty string: [--resample False] resamples *)
Theorem C67_flags : forall a p, main_plan a = Ok p ->
  (c_resample (p_config p) = true <-> exists s, a_resample a = Some s /\ s <> "") /\
  (c_optimize_path (p_config p) = true <-> exists s, a_optimize_path a = Some s /\ s <> "") /\
  (p_train p = false <-> a_train a = Some "").
Proof.
  intros a p H. unfold main_plan in H. destruct (parse_objective _); cbn [rbind] in H; [|discriminate].
  cbn [c_targets] in H. destruct (default_to 4 (a_num_targets a)) as [|[|K]]; try discriminate. apply Ok_inj in H. subst p.
  cbn [p_config c_resample c_optimize_path p_train]. unfold bool_flag.
  assert (E : forall x : option string, (match x with None => false | Some s => negb (String.eqb s "") end = true) <-> exists s, x = Some s /\ s <> "").
  { intros [s|]; [|split; [discriminate|intros (s & E & _); discriminate]]. rewrite negb_true_iff, String.eqb_neq. split; [intros H; exists s; auto|].
    intros (s' & E & H). congruence. }
  split; [apply E|]. split; [apply E|].
  destruct (a_train a) as [s|]; [|split; discriminate]. rewrite negb_false_iff, String.eqb_eq. split; [intros ->; reflexivity|congruence].
Qed.
Print Assumptions C67_flags.
Theorem C67_flag_refuted : exists a p, a_resample a = Some "False" /\ a_train a = Some "False" /\
  main_plan a = Ok p /\ c_resample (p_config p) = true /\ p_train p = true.
Proof. exists (mkCli None None (Some "False") (Some 100) None None None (Some "False")). eexists. repeat split. Qed.
Print Assumptions C67_flag_refuted.
(** the sample budget names the run and nothing else: the number of samples is 288 divided by the
    number of targets, whatever budget is given *)
Theorem C67_budget_ignored : forall a p, main_plan a = Ok p ->
  p_samples p = 288 / c_targets (p_config p) /\ c_budget (p_config p) = default_to 288 (a_sample_budget a) /\
  forall budget, exists p', main_plan (mkCli (a_objective a) (a_seed a) (a_resample a) (a_iterations a) (a_num_targets a) (Some budget)
                                       (a_optimize_path a) (a_train a)) = Ok p' /\
    p_samples p' = p_samples p /\ c_budget (p_config p') = budget.
Proof.
  intros a p H. unfold main_plan in *. cbn [a_objective a_num_targets a_resample a_optimize_path a_sample_budget a_iterations a_seed a_train c_targets] in *.
  destruct (parse_objective _); cbn [rbind] in *; [|discriminate].
  destruct (default_to 4 (a_num_targets a)) as [|[|K]]; try discriminate. apply Ok_inj in H. subst p. cbn [p_config p_samples c_targets c_budget].
  split; [reflexivity|]. split; [reflexivity|]. intros b. eexists. split; [reflexivity|]. cbn [p_config p_samples c_budget]. auto.
Qed.
Print Assumptions C67_budget_ignored.
Theorem C67_budget_refuted : exists a p, a_sample_budget a = Some 1000 /\ a_num_targets a = Some 4 /\ main_plan a = Ok p /\
  p_samples p = 72 /\ 72 <> 1000 / 4 /\ run_name (p_config p) = "nvi_nvo_rkl_S1000_K4_I100_seed0".
Proof.
  exists (mkCli None None None (Some 100) (Some 4) (Some 1000) None None). eexists. split; [reflexivity|]. split; [reflexivity|]. split; [reflexivity|].
  split; [reflexivity|]. split; [discriminate|]. reflexivity.
Qed.
Print Assumptions C67_budget_refuted.

(** The other arguments are used as given: the script gets past them exactly when the objective is one
    of three names and there are at least two targets.  It then trains that objective, on that number
    of targets, for that number of iterations, from that seed, and evaluates without resampling. *)
Theorem C67_plan : forall a,
  let name := match a_objective a with Some s => s | None => "nvo_rkl" end in
  ((exists p, main_plan a = Ok p) <-> In name ["nvo_avo"; "nvo_rkl"; "nvo_rkl_mod"] /\ 2 <= default_to 4 (a_num_targets a)) /\
  forall p, main_plan a = Ok p ->
    objective_name (c_objective (p_config p)) = name /\ c_targets (p_config p) = default_to 4 (a_num_targets a) /\
    c_iterations (p_config p) = default_to (200 * 100) (a_iterations a) /\ c_seed (p_config p) = default_to 0 (a_seed a) /\
    p_test_resample p = false.
Proof.
  intros a name. unfold main_plan. fold name. generalize (default_to (200 * 100) (a_iterations a)). intros its.
  assert (E : (exists o, parse_objective name = Ok o) <-> In name ["nvo_avo"; "nvo_rkl"; "nvo_rkl_mod"]).
  { unfold parse_objective. cbn [In]. destruct (String.eqb_spec name "nvo_avo") as [->|N1]; [split; eauto|].
    destruct (String.eqb_spec name "nvo_rkl") as [->|N2]; [split; eauto|]. destruct (String.eqb_spec name "nvo_rkl_mod") as [->|N3]; [split; eauto|].
    split; [intros [o Ho]; discriminate|]. intros [?|[?|[?|[]]]]; congruence. }
  assert (En : forall o, parse_objective name = Ok o -> objective_name o = name).
  { unfold parse_objective. intros o. destruct (String.eqb_spec name "nvo_avo") as [->|N1]; [intros [= <-]; reflexivity|].
    destruct (String.eqb_spec name "nvo_rkl") as [->|N2]; [intros [= <-]; reflexivity|]. destruct (String.eqb_spec name "nvo_rkl_mod") as [->|N3]; [intros [= <-]; reflexivity|discriminate]. }
  split.
  - rewrite <- E. split.
    + intros [p H]. destruct (parse_objective name) as [o|]; cbn [rbind] in H; [|discriminate]. cbn [c_targets] in H.
      destruct (default_to 4 (a_num_targets a)) as [|[|K]]; try discriminate. split; [eauto|lia].
    + intros [[o Ho] HK]. rewrite Ho. cbn [rbind c_targets]. destruct (default_to 4 (a_num_targets a)) as [|[|K]]; try lia. eauto.
  - intros p H. destruct (parse_objective name) as [o|] eqn:Ho; cbn [rbind] in H; [|discriminate]. cbn [c_targets] in H.
    destruct (default_to 4 (a_num_targets a)) as [|[|K]]; try discriminate. apply Ok_inj in H. subst p. cbn. rewrite (En o eq_refl). auto.
Qed.
Print Assumptions C67_plan.

(** ** C68 The training loop of the APG experiment *)
(** The log file: training in a working directory without a results directory (and not as a smoke
    test) stops with FileNotFoundError, and leaves the directory as it was, so that every later
    attempt does the same. *)
Theorem C68_fresh_directory_refuted : forall (W : Type) (f : fs W) version,
  dir_exists ["results"] f = false -> prep_logging false version f = (f, Err FileNotFoundError).
Proof. intros W f v H. unfold prep_logging. change (normpath "./results/") with ["results"]. rewrite H. reflexivity. Qed.
Print Assumptions C68_fresh_directory_refuted.
Theorem C68_existing_directory : forall (W : Type) (f : fs W) version, dir_exists ["results"] f = true -> has_char "/" version = false ->
  prep_logging false version f = (f, Ok (Some ["results"; ("log-" ++ version ++ ".txt")%string])).
Proof.
  intros W f v H Hv. unfold prep_logging. change (normpath "./results/") with ["results"]. rewrite H.
  do 3 f_equal. unfold normpath. cbn [append]. cbn. rewrite components_plain by (change (has_char "/" (v ++ ".txt") = false); rewrite has_char_app, Hv; reflexivity). reflexivity.
Qed.
Print Assumptions C68_existing_directory.
Theorem C68_smoketest_directory : forall (W : Type) (f : fs W) version, exists f', prep_logging true version f = (f', Ok None) /\ dir_exists ["results"] f' = true.
Proof.
  intros W f v. unfold prep_logging. change (normpath "./results/") with ["results"]. destruct (dir_exists ["results"] f) eqn:E; eexists; (split; [reflexivity|]); [exact E|].
  cbn -[in_dec]. destruct (in_dec _ _ _) as [|n]; [reflexivity|]. exfalso. apply n. left. reflexivity.
Qed.
Print Assumptions C68_smoketest_directory.

(** what a whole training does: in every epoch, for every file in turn, one step per batch in
    order, then the models are saved *)
Definition whole (nb : nat -> nat -> nat) (nfiles epochs : nat) : list effect :=
  flat_map (fun e => flat_map (fun g => map (Step e g) (seq 0 (nb e g)) ++ [Save e g]) (seq 0 nfiles)) (seq 0 epochs).
Definition is_step (x : effect) : bool := match x with Step _ _ _ => true | _ => false end.
Definition steps (l : list effect) : nat := length (filter is_step l).

Lemma batches_full e g : forall n b c, train_batches None e g b n c = (map (Step e g) (seq b n), c + n, false).
Proof. induction n as [|n IH]; intros b c; cbn [train_batches seq map]; [rewrite Nat.add_0_r; reflexivity|]. rewrite IH. do 2 f_equal. lia. Qed.
Lemma files_full nb e : forall n g c, exists c', train_files None nb e g n c = (flat_map (fun g => map (Step e g) (seq 0 (nb g)) ++ [Save e g]) (seq g n), c', false).
Proof.
  induction n as [|n IH]; intros g c; cbn [train_files seq flat_map]; [exists c; reflexivity|]. rewrite batches_full. cbn iota.
  destruct (IH (S g) (c + nb g)) as (c' & E). rewrite E. exists c'. rewrite <- app_assoc. reflexivity.
Qed.
Lemma epochs_full nb nf : forall n e c, exists c', train_epochs None nb nf e n c =
  (flat_map (fun e => flat_map (fun g => map (Step e g) (seq 0 (nb e g)) ++ [Save e g]) (seq 0 nf)) (seq e n), c', false).
Proof.
  induction n as [|n IH]; intros e c; cbn [train_epochs seq flat_map]; [exists c; reflexivity|].
  destruct (files_full (nb e) e nf 0 c) as (c1 & E1). rewrite E1. destruct (IH (S e) c1) as (c' & E). rewrite E. exists c'. reflexivity.
Qed.
Theorem C68_training : forall nb nfiles epochs, train None nb nfiles epochs = whole nb nfiles epochs.
Proof. intros. unfold train. destruct (epochs_full nb nfiles epochs 0 0) as (c & E). rewrite E. reflexivity. Qed.
Print Assumptions C68_training.

Lemma steps_app a b : steps (a ++ b) = steps a + steps b.
Proof. unfold steps. rewrite filter_app, app_length. reflexivity. Qed.
Lemma steps_cons x a : steps (x :: a) = (if is_step x then 1 else 0) + steps a.
Proof. unfold steps. cbn [filter]. destruct (is_step x); reflexivity. Qed.
Lemma steps_map e g l : steps (map (Step e g) l) = length l.
Proof. induction l; [reflexivity|]. cbn [map]. rewrite steps_cons, IHl. reflexivity. Qed.

(** [stops m c full out]: the run [out] of a loop whose whole effects are [full], entered with the counter [c] *)
Definition stops (m c : nat) (full : list effect) (out : list effect * nat * bool) : Prop :=
  let '(l, c', r) := out in
  c' = c + steps l /\
  (if r then (exists rest, full = l ++ rest) /\ c' = m else l = full /\ c' < m).
Lemma batches_stops m e g : forall n b c, c < m -> stops m c (map (Step e g) (seq b n)) (train_batches (Some m) e g b n c).
Proof.
  induction n as [|n IH]; intros b c H; cbn [train_batches seq map]; [split; [unfold steps; cbn; lia|auto]|].
  destruct (Nat.leb_spec m (S c)).
  - split; [unfold steps; cbn; lia|]. split; [eexists; reflexivity|lia].
  - specialize (IH (S b) (S c) ltac:(lia)). destruct (train_batches _ _ _ _ _ _) as [[l c'] r]. destruct IH as [H1 H2].
    split; [rewrite steps_cons; cbn [is_step]; lia|]. destruct r; [destruct H2 as [(rest & ->) ->]; split; [exists rest; reflexivity|reflexivity]|].
    destruct H2 as [-> H2]. auto.
Qed.
Lemma files_stops m nb e : forall n g c, c < m ->
  stops m c (flat_map (fun g => map (Step e g) (seq 0 (nb g)) ++ [Save e g]) (seq g n)) (train_files (Some m) nb e g n c).
Proof.
  induction n as [|n IH]; intros g c H; cbn [train_files seq flat_map]; [split; [unfold steps; cbn; lia|auto]|].
  pose proof (batches_stops m e g (nb g) 0 c H) as HB. destruct (train_batches _ _ _ _ _ _) as [[l c1] r]. destruct HB as [H1 H2]. destruct r.
  - destruct H2 as [(rest & E) ->]. split; [exact H1|]. split; [|reflexivity]. rewrite E, <- !app_assoc. eexists. reflexivity.
  - destruct H2 as [-> H2]. specialize (IH (S g) c1 H2). destruct (train_files _ _ _ _ _ _) as [[l' c2] r']. destruct IH as [H3 H4].
    split; [rewrite steps_app, steps_cons; cbn [is_step]; lia|]. destruct r'.
    + destruct H4 as [(rest & E) ->]. rewrite E. split; [|reflexivity]. exists rest. rewrite <- !app_assoc. reflexivity.
    + destruct H4 as [-> H4]. rewrite <- app_assoc. auto.
Qed.
Lemma epochs_stops m nb nf : forall n e c, c < m ->
  stops m c (flat_map (fun e => flat_map (fun g => map (Step e g) (seq 0 (nb e g)) ++ [Save e g]) (seq 0 nf)) (seq e n)) (train_epochs (Some m) nb nf e n c).
Proof.
  induction n as [|n IH]; intros e c H; cbn [train_epochs seq flat_map]; [split; [unfold steps; cbn; lia|auto]|].
  pose proof (files_stops m (nb e) e nf 0 c H) as HB. destruct (train_files _ _ _ _ _ _) as [[l c1] r]. destruct HB as [H1 H2]. destruct r.
  - destruct H2 as [(rest & E) ->]. split; [exact H1|]. split; [|reflexivity]. rewrite E, <- !app_assoc. eexists. reflexivity.
  - destruct H2 as [-> H2]. specialize (IH (S e) c1 H2). destruct (train_epochs _ _ _ _ _ _) as [[l' c2] r']. destruct IH as [H3 H4].
    split; [rewrite steps_app; lia|]. destruct r'.
    + destruct H4 as [(rest & E) ->]. rewrite E. split; [|reflexivity]. exists rest. rewrite <- !app_assoc. reflexivity.
    + destruct H4 as [-> H4]. auto.
Qed.
(** a smoke test of m iterations does what a whole training does, up to and including its m-th
    step, and stops there (if there are so many steps; else it does everything) *)
Theorem C68_smoketest : forall m nb nfiles epochs, 0 < m ->
  let l := train (Some m) nb nfiles epochs in
  (exists rest, whole nb nfiles epochs = l ++ rest) /\
  (steps (whole nb nfiles epochs) < m -> l = whole nb nfiles epochs) /\
  (m <= steps (whole nb nfiles epochs) -> steps l = m /\ exists l0 e g b, l = l0 ++ [Step e g b]).
Proof.
  intros m nb nf ep Hm. cbn zeta. unfold train.
  pose proof (epochs_stops m nb nf ep 0 0 Hm) as H. fold (whole nb nf ep) in H.
  assert (HL : forall n e c, snd (train_epochs (Some m) nb nf e n c) = true -> exists l0 e' g b, fst (fst (train_epochs (Some m) nb nf e n c)) = l0 ++ [Step e' g b]).
  { clear H. assert (HB : forall e g n b c, snd (train_batches (Some m) e g b n c) = true -> exists l0 b', fst (fst (train_batches (Some m) e g b n c)) = l0 ++ [Step e g b']).
    { intros e g. induction n as [|n IH]; intros b c; cbn [train_batches]; [discriminate|]. destruct (m <=? S c); [intros _; exists [], b; reflexivity|].
      specialize (IH (S b) (S c)). destruct (train_batches _ _ _ _ _ _) as [[l c'] r]. cbn [fst snd] in *. intros Hr. destruct (IH Hr) as (l0 & b' & ->).
      exists (Step e g b :: l0), b'. reflexivity. }
    assert (HF : forall nb e n g c, snd (train_files (Some m) nb e g n c) = true -> exists l0 g' b', fst (fst (train_files (Some m) nb e g n c)) = l0 ++ [Step e g' b']).
    { intros nb' e. induction n as [|n IH]; intros g c; cbn [train_files]; [discriminate|].
      specialize (HB e g (nb' g) 0 c). destruct (train_batches _ _ _ _ _ _) as [[l c1] r]. cbn [fst snd] in *. destruct r.
      - intros _. destruct (HB eq_refl) as (l0 & b' & ->). exists l0, g, b'. reflexivity.
      - specialize (IH (S g) c1). destruct (train_files _ _ _ _ _ _) as [[l' c'] r']. cbn [fst snd] in *. intros Hr. destruct (IH Hr) as (l0 & g' & b' & ->).
        exists (l ++ Save e g :: l0), g', b'. rewrite <- app_assoc. reflexivity. }
    induction n as [|n IH]; intros e c; cbn [train_epochs]; [discriminate|].
    specialize (HF (nb e) e nf 0 c). destruct (train_files _ _ _ _ _ _) as [[l c1] r]. cbn [fst snd] in *. destruct r.
    - intros _. destruct (HF eq_refl) as (l0 & g' & b' & ->). exists l0, e, g', b'. reflexivity.
    - specialize (IH (S e) c1). destruct (train_epochs _ _ _ _ _ _) as [[l' c'] r']. cbn [fst snd] in *. intros Hr. destruct (IH Hr) as (l0 & e' & g' & b' & ->).
      exists (l ++ l0), e', g', b'. rewrite <- app_assoc. reflexivity. }
  specialize (HL ep 0 0). destruct (train_epochs _ _ _ _ _ _) as [[l c] r]. cbn [fst snd] in *. destruct H as [H1 H2]. cbn [plus] in H1. destruct r.
  - destruct H2 as [(rest & E) ->]. split; [exists rest; exact E|]. rewrite E, steps_app. split; [lia|]. intros _. split; [lia|apply HL; reflexivity].
  - destruct H2 as [-> H2]. split; [exists []; symmetry; apply app_nil_r|]. split; [reflexivity|lia].
Qed.
Print Assumptions C68_smoketest.
Example C68_case : train (Some 4) (fun _ g => g + 2) 2 3 = [Step 0 0 0; Step 0 0 1; Save 0 0; Step 0 1 0; Step 0 1 1] /\
  steps (whole (fun _ g => g + 2) 2 3) = 15.
Proof. split; reflexivity. Qed.
