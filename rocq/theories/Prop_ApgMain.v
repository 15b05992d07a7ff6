(** C80: the command line and the test mode of the bouncing-digits experiment.  C81: devices. *)
From Coq Require Import Lia Ascii.
From Verif Require Import ApgMain KeyFacts SpecUtils Thm_Utils Prop_Training Prop_Runs.
Open Scope nat_scope.

(** ** C80 The bouncing-digits script does what its arguments say and tests what was trained *)
Definition settings_of (c : acall) : asettings := match c with Test s | Train s _ _ _ _ => s end.
(** a flag is on when it is given any text but the empty one *)
Definition flag_on (x : option string) : Prop := exists s, x = Some s /\ s <> "".
Lemma flag_spec x : bool_flag false x = true <-> flag_on x.
Proof.
  unfold flag_on. destruct x as [s|]; cbn; [|split; [discriminate|intros (s & H & _); discriminate]].
  rewrite negb_true_iff, String.eqb_neq. split; [intros H; exists s; auto|]. intros (s' & [= <-] & H). exact H.
Qed.
(** Every argument reaches the call it belongs to; those not given have their default.  The iterations
    bound a smoke test and nothing else (C68). *)
Theorem C80_plan : forall a,
  fst (apg_main a) = default_to 1 (g_seed a) /\
  let s := settings_of (snd (apg_main a)) in
  (s_data_dir s = default_str "./dataset/" (g_data_dir a) /\ s_device s = default_str "cpu" (g_device a)) /\
  (s_frame_pixels s = default_to 96 (g_frame_pixels a) /\ s_shape_pixels s = default_to 28 (g_shape_pixels a) /\
   s_timesteps s = default_to 10 (g_timesteps a) /\ s_num_objects s = default_to 3 (g_num_objects a)) /\
  (s_budget s = default_to 120 (g_budget a) /\ s_num_sweeps s = default_to 5 (g_num_sweeps a)) /\
  (s_hidden_digit s = default_to 400 (g_hidden_digit a) /\ s_hidden_coor s = default_to 400 (g_hidden_coor a) /\
   s_where_dim s = default_to 2 (g_where_dim a) /\ s_what_dim s = default_to 10 (g_what_dim a)) /\
  (flag_on (g_test a) -> snd (apg_main a) = Test s) /\
  (~ flag_on (g_test a) -> exists smoke, (smoke = true <-> flag_on (g_smoketest a)) /\
     snd (apg_main a) = Train s (default_to 200 (g_num_epochs a)) (default_str "2e-4" (g_lr a)) (default_to 10 (g_batch_size a)) (smoke, default_to 10 (g_iterations a))).
Proof.
  intros a. unfold apg_main. cbn [fst snd]. split; [reflexivity|]. generalize (flag_spec (g_test a)).
  destruct (bool_flag false (g_test a)); intros E; cbn [settings_of]; cbv zeta;
    cbn [s_data_dir s_device s_frame_pixels s_shape_pixels s_timesteps s_num_objects s_budget s_num_sweeps s_hidden_digit s_hidden_coor s_where_dim s_what_dim].
  - repeat (split; [auto|]). intros H. exfalso. apply H, E. reflexivity.
  - do 4 (split; [auto|]). split; [intros H; apply E in H; discriminate|]. intros _. exists (bool_flag false (g_smoketest a)). split; [apply flag_spec|reflexivity].
Qed.
Print Assumptions C80_plan.
Definition no_args : acli := mkAcli None None None None None None None None None None None None None None None None None None None.
Definition args_false : acli := mkAcli None None None None None None None None None None None None None None None (Some "False") None None None.
Theorem C80_flag_refuted : g_test args_false = Some "False" /\ exists s, snd (apg_main args_false) = Test s.
Proof. split; [reflexivity|]. eexists. reflexivity. Qed.
Print Assumptions C80_flag_refuted.

(** The test mode runs as many particles as training, on the sequences of a data file, cut to the
    requested number of frames ... *)
Theorem C80_test : forall (W : Type) s (init : heap (W := W)) (d : disk W) t, test_gibbs_sweep s init d = Ok t ->
  t_particles t = s_budget s / (s_num_sweeps s + 1) /\ (forall n, sample_size (s_budget s) (s_num_sweeps s) = Ok n -> t_particles t = n) /\
  exists file frames, In (file, (t_sequences t, frames)) (dk_videos d) /\ ends_with ".pt" file = true /\
    t_file t = (s_data_dir s ++ "/video/" ++ file)%string /\ t_frames t = Nat.min frames (s_timesteps s).
Proof.
  intros W s init d t H. unfold test_gibbs_sweep in H. destruct (filter _ (dk_videos d)) as [|[file [n fr]] l] eqn:E; [discriminate|]. injection H as <-. cbn [t_particles t_sequences t_file t_frames].
  split; [reflexivity|]. split; [intros m; unfold sample_size; destruct (0 <? _); [intros [= <-]; reflexivity|discriminate]|].
  assert (Hin : In (file, (n, fr)) (filter (fun f => ends_with ".pt" (fst f)) (dk_videos d))) by (rewrite E; left; reflexivity).
  apply filter_In in Hin. destruct Hin as [H1 H2]. exists file, fr. auto.
Qed.
Print Assumptions C80_test.
(** ... of any data file, not one of the requested numbers of frames and objects ... *)
Theorem C80_test_file_refuted : forall (W : Type) (init : heap (W := W)) f, exists s d t wanted_path,
  d = mkDisk [("video-timesteps=20-objects=5.pt", (100, 20)); ("video-timesteps=10-objects=3.pt", (100, 10))] f /\
  get_data_paths (s_data_dir s) (map fst (dk_videos d)) (s_timesteps s) (s_num_objects s) = Ok [wanted_path] /\
  test_gibbs_sweep s init d = Ok t /\ t_file t <> wanted_path.
Proof.
  intros W init f. exists (settings_of (snd (apg_main no_args))). eexists. eexists. eexists. split; [reflexivity|]. split; [reflexivity|]. split; [reflexivity|].
  discriminate.
Qed.
Print Assumptions C80_test_file_refuted.
(** ... with networks nobody trained: those init_models made.  What is tested depends on no checkpoint. *)
Theorem C80_test_untrained_refuted : forall (W : Type) s (init : heap (W := W)) videos f f' t,
  test_gibbs_sweep s init (mkDisk videos f) = Ok t ->
  t_models t = init /\ test_gibbs_sweep s init (mkDisk videos f') = Ok t.
Proof.
  intros W s init videos f f' t H. unfold test_gibbs_sweep in *. cbn [dk_videos] in *. destruct (filter _ videos) as [|[file [n fr]] l]; [discriminate|].
  injection H as <-. split; reflexivity.
Qed.
Print Assumptions C80_test_untrained_refuted.
(** a budget below one particle is refused by training and not by testing *)
Theorem C80_test_budget_refuted : forall (W : Type) s (init : heap (W := W)) d t, s_budget s <= s_num_sweeps s -> test_gibbs_sweep s init d = Ok t ->
  sample_size (s_budget s) (s_num_sweeps s) = Err AssertionError /\ t_particles t = 0.
Proof.
  intros W s init d t Hb H. destruct (C80_test _ _ _ _ _ H) as (-> & _). unfold sample_size. rewrite Nat.div_small by lia. split; reflexivity.
Qed.
Print Assumptions C80_test_budget_refuted.
Example C80_test_case : exists t, test_gibbs_sweep (W := nat) (mkAset "./dataset/" 96 28 10 3 "cpu" 5 5 400 400 2 10) (fun _ => []) (mkDisk [("a.pt", (4, 12)); ("b.txt", (0, 0))] (mkFS [] [])) = Ok t /\
  t_frames t = 10 /\ t_particles t = 0.
Proof. eexists. split; [reflexivity|]. split; reflexivity. Qed.

(** Two trainings write the same checkpoint exactly when they agree on the numbers of frames, objects and
    sweeps and on the number of particles: not on the seed, the data, the learning rate or the sizes of
    the networks. *)
Theorem C80_checkpoint_names : forall s s' n n', checkpoint_file s n = checkpoint_file s' n' <->
  (s_timesteps s, s_num_objects s, s_num_sweeps s, n) = (s_timesteps s', s_num_objects s', s_num_sweeps s', n').
Proof.
  intros s s' n n'. unfold checkpoint_file. split; [|intros [= -> -> -> ->]; reflexivity]. intros H. apply C66_model_version. revert H.
  generalize (model_version (s_timesteps s) (s_num_objects s) (s_num_sweeps s) n) (model_version (s_timesteps s') (s_num_objects s') (s_num_sweeps s') n').
  intros x y H. cbn [append] in H. injection H as H. exact H.
Qed.
Print Assumptions C80_checkpoint_names.
(** so that a training loses the checkpoint of another with other layer sizes, whose networks can then
    not be loaded *)
Theorem C80_overwrite_refuted : forall s1 s2, s1 = mkAset "./dataset/" 96 28 10 3 "cpu" 120 5 400 400 2 10 -> s2 = mkAset "./dataset/" 96 28 10 3 "cpu" 120 5 200 200 2 10 ->
  exists models h1 h2 f1 f2 file, save_apg (W := nat) s1 models h1 (mkFS [] []) = Ok f1 /\ save_apg s2 models h2 f1 = Ok f2 /\
    (exists n, sample_size (s_budget s1) (s_num_sweeps s1) = Ok n /\ file = checkpoint_file s1 n) /\
    snd (load_models_from Nat.eqb models file "./weights" f1 h1) = Ok tt /\
    snd (load_models_from Nat.eqb models file "./weights" f2 h1) = Err RuntimeError.
Proof.
  intros s1 s2 -> ->. exists [("dec", 0)], (fun _ => [("weight", 400)]), (fun _ => [("weight", 200)]). eexists. eexists. eexists.
  split; [reflexivity|]. split; [reflexivity|]. split; [exists 20; split; reflexivity|]. split; vm_compute; reflexivity.
Qed.
Print Assumptions C80_overwrite_refuted.

(** ** C81 Device selection *)
(** A device or a text is used as given.  Without a preference, or with a number, the CPU is used
    unless CUDA is available and not hidden; then the GPU of that number, or the current one. *)
Theorem C81_autodevice : forall device cuda visible p,
  (forall d, p = PrefDevice d -> autodevice device cuda visible p = Ok d) /\
  (forall s, p = PrefStr s -> autodevice device cuda visible p = device s) /\
  (p = PrefNone \/ (exists z, p = PrefInt z) -> cuda = false \/ visible = Some "" -> autodevice device cuda visible p = device "cpu") /\
  (cuda = true -> visible <> Some "" ->
     (p = PrefNone -> autodevice device cuda visible p = device "cuda") /\
     (forall n, p = PrefInt (Z.of_nat n) -> autodevice device cuda visible p = device ("cuda:" ++ show n)%string)).
Proof.
  intros device cuda visible p. split; [intros d ->; reflexivity|]. split; [intros s ->; reflexivity|]. split.
  - intros Hp Hc. assert (E : negb cuda || (match visible with Some v => String.eqb v "" | None => false end) = true).
    { destruct Hc as [->| ->]; [reflexivity|]. apply orb_true_r. }
    destruct Hp as [->|[z ->]]; unfold autodevice; rewrite E; reflexivity.
  - intros -> Hv. assert (E : negb true || (match visible with Some v => String.eqb v "" | None => false end) = false).
    { destruct visible as [v|]; [|reflexivity]. cbn. apply String.eqb_neq. congruence. }
    split; [intros ->|intros n ->]; unfold autodevice; rewrite E; [reflexivity|]. unfold show_int. destruct (Z.of_nat n <? 0)%Z eqn:En; [apply Z.ltb_lt in En; lia|].
    rewrite Nat2Z.id. reflexivity.
Qed.
Print Assumptions C81_autodevice.
(** kw_autodevice returns the same device under the name device, for every preference but a device *)
Theorem C81_kw_autodevice : forall device cuda visible p d, (forall x, p <> PrefDevice x) ->
  kw_autodevice device cuda visible p = Ok d <-> exists x, autodevice device cuda visible p = Ok x /\ d = [("device", x)].
Proof.
  intros device cuda visible p d Hp. unfold kw_autodevice. destruct p as [|z|s|x]; [| | |destruct (Hp x eq_refl)];
    (destruct (autodevice device cuda visible _) as [y|e]; cbn [rmap]; split; [intros [= <-]; eauto|intros (x & [= <-] & ->); reflexivity|discriminate|intros (x & H & _); discriminate]).
Qed.
Print Assumptions C81_kw_autodevice.
(** which it refuses, although autodevice accepts it *)
Theorem C81_kw_device_refuted : forall device cuda visible x,
  autodevice device cuda visible (PrefDevice x) = Ok x /\ kw_autodevice device cuda visible (PrefDevice x) = Err TypeError.
Proof. split; reflexivity. Qed.
Print Assumptions C81_kw_device_refuted.
Example C81_case : autodevice (fun s => Ok s) true (Some "0,1") (PrefInt 1) = Ok "cuda:1" /\ autodevice (fun s => Ok s) true (Some "") (PrefInt 1) = Ok "cpu" /\
  kw_autodevice (fun s => Ok s) false None PrefNone = Ok [("device", "cpu")].
Proof. repeat split. Qed.
