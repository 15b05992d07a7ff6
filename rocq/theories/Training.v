(** Model of the data handling of /repo/experiments/apgs/main.py: which files are read, how a file
    is cut into batches, how the budget becomes a number of samples.

    Simplifications: a data file is the list of its sequences' indices; random permutations are
    inputs; optimisation and logging are left out. *)
From Verif Require Export Annealing Simulator.
Open Scope nat_scope.

(** ["timesteps=%d-objects=%d" % (timesteps, num_objects)], main.py:153 *)
Definition wanted (timesteps num_objects : nat) : string :=
  ("timesteps=" ++ show timesteps ++ "-objects=" ++ show num_objects)%string.
(** get_data_paths(data_dir, timesteps, num_objects), main.py:148-158.  [dir]: what os.listdir
    returns.  os.path.join after a trailing slash is concatenation. *)
Definition get_data_paths (data_dir : string) (dir : list string) (timesteps num_objects : nat) : res (list string) :=
  let data_paths :=
    map (fun file => data_dir ++ "/video/" ++ file)%string
      (filter (fun file => ends_with ".pt" file && substr (wanted timesteps num_objects) file) dir) in
  if Nat.eqb (length data_paths) 0 then Err ValueError else Ok data_paths.

(** l[a:b] for 0 <= a <= b *)
Definition slice {A} (l : list A) (a b : nat) : list A := firstn (b - a) (skipn a l).
(** train_apg, main.py:80: [1 if N <= batch_size else N // batch_size] *)
Definition num_batches (N batch_size : nat) : res nat :=
  if N <=? batch_size then Ok 1 else if batch_size =? 0 then Err ZeroDivisionError else Ok (N / batch_size).
(** train_apg, main.py:81-86: the sequences of each batch; [perm]: torch.randperm(N) *)
Definition batches (N batch_size : nat) (perm : list nat) : res (list (list nat)) :=
  rmap (fun n => map (fun b => slice perm (b * batch_size) ((b + 1) * batch_size)) (seq 0 n)) (num_batches N batch_size).

(** train_apg, main.py:46-48 *)
Definition sample_size (budget num_sweeps : nat) : res nat :=
  let n := budget / (num_sweeps + 1) in if 0 <? n then Ok n else Err AssertionError.
