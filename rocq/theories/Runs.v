(** Model of the command lines, run names and checkpoint files of the two experiments:
    /repo/experiments/annealing/main.py, /repo/experiments/annealing/utils.py,
    /repo/experiments/apgs/main.py, /repo/combinators/utils.py.

    Simplifications: a file system is the set of its directories and the contents of its
    checkpoint files; the working directory exists.  Integers on the command line are
    non-negative. *)
From Coq Require Import Ascii.
From Verif Require Export Training.
Open Scope nat_scope.

(** ** Paths *)
(** the components of a path, between slashes *)
Fixpoint components (s : string) (cur : string) : list string :=
  match s with
  | EmptyString => [cur]
  | String c s' => if Ascii.eqb c "/" then cur :: components s' "" else components s' (cur ++ String c "")%string
  end.
(** os.path.normpath on relative paths without "..": drop empty components and "."
    ([os.curdir]).  The operating system resolves a path to the same file. *)
Definition normpath (s : string) : list string :=
  filter (fun c => negb (String.eqb c "" || String.eqb c ".")) (components s "").

(** ** Checkpoint files *)
Section Files.
  Context {W : Type} (fits : W -> W -> bool).
  Record fs : Type := mkFS { fs_dirs : list (list string); fs_files : list (list string * dict (dict W)) }.
  Fixpoint path_get {V} (p : list string) (l : list (list string * V)) : option V :=
    match l with
    | [] => None
    | (q, v) :: l' => if list_eq_dec String.string_dec p q then Some v else path_get p l'
    end.
  Definition dir_exists (p : list string) (f : fs) : bool :=
    match p with [] => true | _ => if in_dec (list_eq_dec String.string_dec) p (fs_dirs f) then true else false end.
  (** os.makedirs, with all parents *)
  Fixpoint inits (l : list string) : list (list string) :=
    match l with [] => [] | x :: l' => [x] :: map (cons x) (inits l') end.
  Definition makedirs (p : list string) (f : fs) : fs := mkFS (inits p ++ fs_dirs f) (fs_files f).

  (** save_models, /repo/combinators/utils.py:30-36.  torch.save writes the file, replacing
      what it held. *)
  Definition save_models_to (models : dict nat) (filename weights_dir : string) (h : heap) (f : fs) : fs :=
    let f := if dir_exists (normpath weights_dir) f then f else makedirs (normpath weights_dir) f in
    mkFS (fs_dirs f) ((normpath (weights_dir ++ "/" ++ filename), save_models (W := W) models h) :: fs_files f).
  (** load_models, /repo/combinators/utils.py:39-44 *)
  Definition load_models_from (models : dict nat) (filename weights_dir : string) (f : fs) (h : heap) : heap * res unit :=
    match path_get (normpath (weights_dir ++ "/" ++ filename)) (fs_files f) with
    | None => (h, Err FileNotFoundError)
    | Some ckpt => load_models fits models ckpt h
    end.

  (** save_nvi_model and load_nvi_model, /repo/experiments/annealing/utils.py:64-83;
      [filename=None] fails the assertion. *)
  Definition nvi_names : list string := ["targets"; "forwards"; "reverses"].
  Definition save_nvi_model (targets forwards reverses : group) (filename : option string) (h : heap) (f : fs) : res fs :=
    match filename with
    | None => Err AssertionError
    | Some name =>
        rmap (fun d => save_models_to d (name ++ ".pt") "./weights" h f)
          (models_as_dict (MSeq [targets; forwards; reverses]) nvi_names)
    end.
  Definition load_nvi_model (targets forwards reverses : group) (filename : option string) (f : fs) (h : heap) : heap * res unit :=
    match filename with
    | None => (h, Err AssertionError)
    | Some name =>
        match models_as_dict (MSeq [targets; forwards; reverses]) nvi_names with
        | Err e => (h, Err e)
        | Ok d => load_models_from d ("./" ++ name ++ ".pt") "./weights" f h
        end
    end.
End Files.
Arguments fs : clear implicits.

(** ** The command line of the annealing experiment *)
(** add_argument(..., default=d, type=bool): the value of the flag; argparse applies [bool] to
    the string given, /repo/experiments/annealing/main.py:127,131-132 *)
Definition bool_flag (default : bool) (given : option string) : bool :=
  match given with None => default | Some s => negb (String.eqb s "") end.

Inductive objective : Type := NvoAvo | NvoRkl | NvoRklMod.
(** [objective.__name__] *)
Definition objective_name (o : objective) : string :=
  match o with NvoAvo => "nvo_avo" | NvoRkl => "nvo_rkl" | NvoRklMod => "nvo_rkl_mod" end.
(** /repo/experiments/annealing/main.py:153-162 *)
Definition parse_objective (s : string) : res objective :=
  if String.eqb s "nvo_avo" then Ok NvoAvo
  else if String.eqb s "nvo_rkl" then Ok NvoRkl
  else if String.eqb s "nvo_rkl_mod" then Ok NvoRklMod
  else Err TypeError.

(** the arguments as given, /repo/experiments/annealing/main.py:125-135 *)
Record cli : Type := mkCli {
  a_objective : option string; a_seed : option nat; a_resample : option string; a_iterations : option nat;
  a_num_targets : option nat; a_sample_budget : option nat; a_optimize_path : option string; a_train : option string }.
Definition default_to (d : nat) (x : option nat) : nat := match x with Some n => n | None => d end.

(** a run: what is trained and under which name *)
Record config : Type := mkConfig {
  c_resample : bool; c_optimize_path : bool; c_objective : objective; c_budget : nat; c_targets : nat;
  c_iterations : nat; c_seed : nat }.
(** /repo/experiments/annealing/main.py:165-173 *)
Definition run_name (c : config) : string :=
  ("nvi" ++ (if c_resample c then "r" else "") ++ (if c_optimize_path c then "s" else "") ++ "_"
   ++ objective_name (c_objective c) ++ "_S" ++ show (c_budget c) ++ "_K" ++ show (c_targets c)
   ++ "_I" ++ show (c_iterations c) ++ "_seed" ++ show (c_seed c))%string.

(** the script up to the training, /repo/experiments/annealing/main.py:125-200: the
    configuration, whether the models are trained (or loaded), the number of samples per
    target ([S // K] with [S] rebound to 288 at line 178) and whether the evaluated sampler
    resamples (line 200).  With one target anneal_between divides by zero, with none torch.arange
    rejects its negative step (/repo/experiments/annealing/models.py:255). *)
Record plan : Type := mkPlan {
  p_config : config; p_train : bool; p_samples : nat; p_test_resample : bool }.
Definition main_plan (a : cli) : res plan :=
  rbind (parse_objective (match a_objective a with Some s => s | None => "nvo_rkl" end)) (fun o =>
  let c := mkConfig (bool_flag false (a_resample a)) (bool_flag false (a_optimize_path a)) o
             (default_to 288 (a_sample_budget a)) (default_to 4 (a_num_targets a))
             (default_to (200 * 100) (a_iterations a)) (default_to 0 (a_seed a)) in
  match c_targets c with
  | 0 => Err RuntimeError
  | 1 => Err ZeroDivisionError
  | K => Ok (mkPlan c (bool_flag true (a_train a)) (288 / K) false)
  end).

(** ** The files of the APG experiment *)
(** get_model_version, /repo/experiments/apgs/main.py:27-29 *)
Definition model_version (timesteps num_objects num_sweeps sample_size : nat) : string :=
  ("apg-timesteps=" ++ show timesteps ++ "-objects=" ++ show num_objects ++ "-sweeps=" ++ show num_sweeps
   ++ "-samples=" ++ show sample_size)%string.
(** train_apg, /repo/experiments/apgs/main.py:58-65: the log file is opened for appending (which
    creates the file but not its directory), then the directory is created if missing *)
Definition prep_logging {W} (smoketest : bool) (version : string) (f : fs W) : fs W * res (option (list string)) :=
  let path := normpath ("./results/log-" ++ version ++ ".txt") in
  let opened := if smoketest then Ok None
                else if dir_exists (normpath "./results/") f then Ok (Some path) else Err FileNotFoundError in
  match opened with
  | Err e => (f, Err e)
  | Ok l => ((if dir_exists (normpath "./results/") f then f else makedirs (normpath "./results/") f), Ok l)
  end.

(** The training loop of train_apg, /repo/experiments/apgs/main.py:68-129, as the sequence of its
    effects: an optimisation step on batch [b] of the [g]-th file of epoch [e], or saving the
    models.  [nb e g]: the number of batches of that file; [smoke]: the number of iterations of
    a smoke test.  The second component is whether the function returned early. *)
Inductive effect : Type := Step (e g b : nat) | Save (e g : nat).
Fixpoint train_batches (smoke : option nat) (e g b n counter : nat) : list effect * nat * bool :=
  match n with
  | 0 => ([], counter, false)
  | S n' =>
      let counter := S counter in
      if (match smoke with Some m => m <=? counter | None => false end) then ([Step e g b], counter, true)
      else let '(l, c, r) := train_batches smoke e g (S b) n' counter in (Step e g b :: l, c, r)
  end.
Fixpoint train_files (smoke : option nat) (nb : nat -> nat) (e g n counter : nat) : list effect * nat * bool :=
  match n with
  | 0 => ([], counter, false)
  | S n' =>
      let '(l, c, r) := train_batches smoke e g 0 (nb g) counter in
      if r then (l, c, true)
      else let '(l', c', r') := train_files smoke nb e (S g) n' c in (l ++ Save e g :: l', c', r')
  end.
Fixpoint train_epochs (smoke : option nat) (nb : nat -> nat -> nat) (nfiles e n counter : nat) : list effect * nat * bool :=
  match n with
  | 0 => ([], counter, false)
  | S n' =>
      let '(l, c, r) := train_files smoke (nb e) e 0 nfiles counter in
      if r then (l, c, true)
      else let '(l', c', r') := train_epochs smoke nb nfiles (S e) n' c in (l ++ l', c', r')
  end.
Definition train (smoke : option nat) (nb : nat -> nat -> nat) (nfiles epochs : nat) : list effect :=
  fst (fst (train_epochs smoke nb nfiles 0 epochs 0)).
