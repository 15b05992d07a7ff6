(** Model of /repo/experiments/apgs/dataset/simulator.py: the bouncing-shapes data set.

    Simplifications: arithmetic is exact; tensors of shape (timesteps, 2) are functions of
    (time, axis); rendering (affine_grid, grid_sample) is left out; random numbers are inputs. *)
From Coq Require Export Reals.
From Verif Require Export Utils.
Open Scope R_scope.

(** ** sim_trajectory, simulator.py:88-117 *)
Definition row := nat -> R.                     (* one time step: axis 0 is x, axis 1 is y *)
Definition plane := nat -> nat -> R.            (* time, axis *)
Definition zeros2 : plane := fun _ _ => 0.                                    (* torch.zeros *)
Definition set1 (f : row) (a : nat) (x : R) : row := fun b => if Nat.eqb b a then x else f b.      (* f[a] = x *)
Definition set2 (A : plane) (t a : nat) (x : R) : plane :=                    (* A[t][a] = x *)
  fun u => if Nat.eqb u t then set1 (A u) a x else A u.
Definition set_row (A : plane) (t : nat) (r : row) : plane := fun u => if Nat.eqb u t then r else A u.  (* A[t] = r *)

(** one [if X_new[a] < -1.0], lines 103-105 and 109-111.  X_new is a fresh tensor; V_new is the
    view V[t], so writing V_new[a] writes V[t][a]. *)
Definition low (t a : nat) (s : row * plane) : row * plane :=
  let (xn, V) := s in
  if Rlt_dec (xn a) (-1) then (set1 xn a (-1 + Rabs (-1 - xn a)), set2 V t a (- V t a)) else (xn, V).
(** one [if X_new[a] > 1.0], lines 106-108 and 112-114 *)
Definition high (t a : nat) (s : row * plane) : row * plane :=
  let (xn, V) := s in
  if Rlt_dec 1 (xn a) then (set1 xn a (1 - Rabs (xn a - 1)), set2 V t a (- V t a)) else (xn, V).
(** the body of the loop, lines 100-116 *)
Definition traj_step (s : plane * plane) (t : nat) : plane * plane :=
  let (X, V) := s in
  let (xn, V1) := high t 1 (low t 1 (high t 0 (low t 0 (fun a => X t a + V t a, V)))) in
  (set_row X (t + 1) xn, set_row V1 (t + 1) (V1 t)).
(** [angle]: v_norm of line 90, any number in [0, 2 pi).  With no time step at all,
    [X[0] = init_xs] is out of range. *)
Definition initial_velocity (dv angle : R) : row :=
  fun a => match a with O => cos angle * dv | _ => sin angle * dv end.
Definition sim_trajectory (timesteps : nat) (dv angle : R) (init_xs : row) : res (plane * plane) :=
  match timesteps with
  | O => Err IndexError
  | S n => Ok (fold_left traj_step (seq 0 n) (set_row zeros2 0 init_xs, set_row zeros2 0 (initial_velocity dv angle)))
  end.

(** ** sim_trajectories, simulator.py:119-139.  [draws]: the successive results of
    Uniform(-1,1).sample((num_tjs, 2)), as functions of (object, axis); [angles]: the angle
    drawn for each object.  [None]: all the given draws were rejected and the loop goes on. *)
Definition dist2 (x0 : plane) (i j : nat) : R := (x0 i 0%nat - x0 j 0%nat) ^ 2 + (x0 i 1%nat - x0 j 1%nat) ^ 2.
Definition a2 : R := / 2.
Definition accepted (x0 : plane) : bool :=
  if Rlt_dec a2 (dist2 x0 0 1) then
    if Rlt_dec a2 (dist2 x0 2 1) then if Rlt_dec a2 (dist2 x0 0 2) then true else false else false
  else false.
Fixpoint rejection (draws : list plane) : option plane :=
  match draws with
  | [] => None
  | x0 :: rest => if accepted x0 then Some x0 else rejection rest
  end.
Fixpoint all_trajectories (timesteps : nat) (dv : R) (angles : nat -> R) (x0 : plane) (objs : list nat) : res (list (plane * plane)) :=
  match objs with
  | [] => Ok []
  | i :: rest =>
      rbind (sim_trajectory timesteps dv (angles i) (x0 i)) (fun xv =>
      rmap (fun l => xv :: l) (all_trajectories timesteps dv angles x0 rest))
  end.
(** x0[2] is out of range when there are fewer than three objects, but [and] reads it only if
    the first two are apart (x0[0], x0[1] are out of range below two). *)
Fixpoint small_rejection (num_tjs : nat) (draws : list plane) : option exn :=
  match draws with
  | [] => None
  | x0 :: rest =>
      if Nat.ltb num_tjs 2 then Some IndexError
      else if Rlt_dec a2 (dist2 x0 0 1) then Some IndexError else small_rejection num_tjs rest
  end.
Definition sim_trajectories (num_tjs timesteps : nat) (dv : R) (angles : nat -> R) (draws : list plane)
  : option (res (list (plane * plane))) :=
  if Nat.ltb num_tjs 3 then option_map (fun e => Err e) (small_rejection num_tjs draws)
  else option_map (fun x0 => all_trajectories timesteps dv angles x0 (seq 0 num_tjs)) (rejection draws).

(** ** sim_save_data, simulator.py:174-220 *)
Open Scope nat_scope.
(** the file name of chunk [counter], lines 203-208 *)
Definition chunk_file (timesteps objects counter : nat) : string :=
  ("seq-timesteps=" ++ show timesteps ++ "-objects=" ++ show objects ++ "-p" ++ show counter ++ ".pt")%string.
(** lines 187-210: the files written, with the number of sequences in each.  A non-positive
    chunk size gives an empty [seqs], which torch.cat refuses (RuntimeError).  [fuel] bounds
    the number of rounds ([None]: still running); see C55_terminates. *)
Fixpoint save_loop (fuel : nat) (timesteps objects : nat) (chunk_size : Z) (left : Z) (counter : nat)
  (files : list (string * Z)) : option (res (list (string * Z))) :=
  if (left <=? 0)%Z then Some (Ok files)
  else match fuel with
  | O => None
  | S fuel' =>
      let this := Z.min chunk_size left in
      if (this <=? 0)%Z then Some (Err RuntimeError)
      else save_loop fuel' timesteps objects chunk_size (Z.max (left - this) 0) (S counter)
             (files ++ [(chunk_file timesteps objects counter, this)])
  end.
Definition sim_save_data (fuel timesteps objects : nat) (chunk_size num_seqs : Z) : option (res (list (string * Z))) :=
  save_loop fuel timesteps objects chunk_size num_seqs 1 [].
(** the shapes of one sequence, line 193: [perm] is np.random.permutation(len(self.shapes)).
    sim_one_sequence (line 151) reads objects[k] for every k < num_objects. *)
Definition pick_shapes (perm : list nat) (num_objects : nat) : res (list nat) :=
  let indices := firstn num_objects perm in
  if Nat.ltb (length indices) num_objects then Err IndexError else Ok indices.

(** ** load_resize_shapes, simulator.py:61-86, as far as the attribute [shapes] is concerned:
    a list before the first call, a tensor of [n] images afterwards.  [accepted_files]: the number
    of files of shape_dir that pass the filter of lines 66-69. *)
Inductive shapes_attr : Type := ShapesList (n : nat) | ShapesTensor (n : nat).
Definition load_resize_shapes (accepted_files : nat) (sh : shapes_attr) : res shapes_attr :=
  match sh with
  | ShapesList n => if n + accepted_files =? 0 then Err ValueError else Ok (ShapesTensor (n + accepted_files))
  | ShapesTensor n => if accepted_files =? 0 then Ok (ShapesTensor n) else Err AttributeError
  end.
(** lines 66-69: which files of the directory are used *)
Fixpoint ends_with (suffix s : string) : bool :=
  String.eqb s suffix || match s with EmptyString => false | String _ s' => ends_with suffix s' end.
Definition shape_files (blacklist dir : list string) : list string :=
  filter (fun f => ends_with ".png" f && negb (mem f blacklist)) dir.
