(** Model of the command line of the bouncing-digits experiment
    (/repo/experiments/apgs/main.py:192-255), of its test mode (test_gibbs_sweep, lines 176-189) and of
    device selection (/repo/combinators/tensor/utils.py:25-45).

    Simplifications: integers on the command line are non-negative; learning rates are their text;
    a data file is the numbers of its sequences and of their frames. *)
From Verif Require Export Runs.
Open Scope nat_scope.

(** ** The command line *)
(** the arguments as given, main.py:193-217 *)
Record acli : Type := mkAcli {
  g_data_dir : option string; g_frame_pixels : option nat; g_shape_pixels : option nat; g_timesteps : option nat; g_num_objects : option nat;
  g_device : option string; g_num_epochs : option nat; g_lr : option string; g_batch_size : option nat; g_budget : option nat; g_num_sweeps : option nat;
  g_hidden_digit : option nat; g_hidden_coor : option nat; g_where_dim : option nat; g_what_dim : option nat;
  g_test : option string; g_smoketest : option string; g_iterations : option nat; g_seed : option nat }.
Definition default_str (d : string) (x : option string) : string := match x with Some s => s | None => d end.
(** what both modes are called with *)
Record asettings : Type := mkAset {
  s_data_dir : string; s_frame_pixels : nat; s_shape_pixels : nat; s_timesteps : nat; s_num_objects : nat; s_device : string;
  s_budget : nat; s_num_sweeps : nat; s_hidden_digit : nat; s_hidden_coor : nat; s_where_dim : nat; s_what_dim : nat }.
(** the call made after seeding, main.py:219-254 *)
Inductive acall : Type :=
| Test (s : asettings)
| Train (s : asettings) (num_epochs : nat) (lr : string) (batch_size : nat) (smoketest : bool * nat).
Definition apg_main (a : acli) : nat * acall :=
  let s := mkAset (default_str "./dataset/" (g_data_dir a)) (default_to 96 (g_frame_pixels a)) (default_to 28 (g_shape_pixels a))
             (default_to 10 (g_timesteps a)) (default_to 3 (g_num_objects a)) (default_str "cpu" (g_device a))
             (default_to 120 (g_budget a)) (default_to 5 (g_num_sweeps a)) (default_to 400 (g_hidden_digit a)) (default_to 400 (g_hidden_coor a))
             (default_to 2 (g_where_dim a)) (default_to 10 (g_what_dim a)) in
  (default_to 1 (g_seed a),
   if bool_flag false (g_test a) then Test s
   else Train s (default_to 200 (g_num_epochs a)) (default_str "2e-4" (g_lr a)) (default_to 10 (g_batch_size a))
          (bool_flag false (g_smoketest a), default_to 10 (g_iterations a))).

(** ** Test mode *)
Section Files.
  Context {W : Type}.
  (** the files: the video directory as os.listdir lists it, with the numbers of sequences and frames
      of each data file, and the checkpoints *)
  Record disk : Type := mkDisk { dk_videos : list (string * (nat * nat)); dk_checkpoints : fs W }.
  (** what is run: the data file read, the numbers of sequences and frames taken from it, the number of
      particles, and the models *)
  Record tested : Type := mkTested { t_file : string; t_sequences : nat; t_frames : nat; t_particles : nat; t_models : heap (W := W) }.
  (** test_gibbs_sweep, main.py:176-189, up to the run of the sampler.  [init]: the state init_models
      gives the networks; [data_paths[0]] of no path is an IndexError. *)
  Definition test_gibbs_sweep (s : asettings) (init : heap (W := W)) (d : disk) : res tested :=
    let particles := s_budget s / (s_num_sweeps s + 1) in
    match filter (fun f => ends_with ".pt" (fst f)) (dk_videos d) with
    | [] => Err IndexError
    | (file, (n, t)) :: _ =>
        Ok (mkTested (s_data_dir s ++ "/video/" ++ file) n (Nat.min t (s_timesteps s)) particles init)
    end.
  (** the checkpoint of a training, main.py:47,121: save_models(models, "cp-" + model_version) in the
      default directory of /repo/combinators/utils.py:30 *)
  Definition checkpoint_file (s : asettings) (samples : nat) : string :=
    ("cp-" ++ model_version (s_timesteps s) (s_num_objects s) (s_num_sweeps s) samples)%string.
  Definition save_apg (s : asettings) (models : dict nat) (h : heap (W := W)) (f : fs W) : res (fs W) :=
    rmap (fun n => save_models_to models (checkpoint_file s n) "./weights" h f) (sample_size (s_budget s) (s_num_sweeps s)).
End Files.
Arguments disk : clear implicits. Arguments tested : clear implicits.

(** ** Devices *)
(** the argument of autodevice; a torch.device is given by its text *)
Inductive preference : Type := PrefNone | PrefInt (z : Z) | PrefStr (s : string) | PrefDevice (s : string).
(** "%d" *)
Definition show_int (z : Z) : string := if (z <? 0)%Z then ("-" ++ show (Z.to_nat (- z)))%string else show (Z.to_nat z).
(** autodevice, /repo/combinators/tensor/utils.py:25-39.  [cuda]: torch.cuda.is_available(); [visible]:
    the environment variable CUDA_VISIBLE_DEVICES; [device]: torch.device, which rejects texts that
    name no device. *)
Definition autodevice (device : string -> res string) (cuda : bool) (visible : option string) (p : preference) : res string :=
  match p with
  | PrefDevice d => Ok d
  | PrefStr s => device s
  | _ =>
      if negb cuda || (match visible with Some v => String.eqb v "" | None => false end) then device "cpu"
      else match p with PrefInt z => device ("cuda:" ++ show_int z)%string | _ => device "cuda" end
  end.
(** kw_autodevice, /repo/combinators/tensor/utils.py:42-44: typeguard rejects a torch.device *)
Definition kw_autodevice (device : string -> res string) (cuda : bool) (visible : option string) (p : preference) : res (dict string) :=
  match p with
  | PrefDevice _ => Err TypeError
  | _ => rmap (fun d => [("device", d)]) (autodevice device cuda visible p)
  end.
