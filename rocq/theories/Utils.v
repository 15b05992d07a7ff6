(** Model of the checkpointing functions of /repo/combinators/utils.py:30-62.

    Not modelled: the file system (directories, file names, normpath and the pickling done by
    torch.save / torch.load are the identity on checkpoints), map_location. *)
From Coq Require Import DecimalString.
From Verif Require Export Base.

(** [str(n)] of a non-negative int: its decimal numeral. *)
Definition show (n : nat) : string := NilZero.string_of_uint (Nat.to_uint n).

Section Utils.
  (** a parameter tensor; [fits old new]: same shape, so that the value can be copied *)
  Context {W : Type} (fits : W -> W -> bool).

  (** A model is an nn.Module object: its identity.  The heap holds every module's
      state dict. *)
  Definition heap := nat -> dict W.

  (** nn.Module.load_state_dict (strict): the names must be the same and the tensors must
      fit, else RuntimeError.  Simplification: torch copies the tensors that fit before it
      raises; here nothing is copied. *)
  Definition load_state_dict (cur saved : dict W) : res (dict W) :=
    if forallb (fun k => dmem k saved) (dkeys cur) && forallb (fun k => dmem k cur) (dkeys saved) &&
       forallb (fun kv => match dget (fst kv) saved with Some w => fits (snd kv) w | None => false end) cur
    then Ok (map (fun kv => (fst kv, match dget (fst kv) saved with Some w => w | None => snd kv end)) cur)
    else Err RuntimeError.

  (** save_models, /repo/combinators/utils.py:30-36: the checkpoint written *)
  Definition save_models (models : dict nat) (h : heap) : dict (dict W) :=
    map (fun kv => (fst kv, h (snd kv))) models.

  (** load_models, /repo/combinators/utils.py:39-44: in the order of the items; an exception
      leaves the models loaded so far loaded *)
  Fixpoint load_models (models : dict nat) (ckpt : dict (dict W)) (h : heap) : heap * res unit :=
    match models with
    | [] => (h, Ok tt)
    | (k, m) :: ms =>
        match dget k ckpt with
        | None => (h, Err KeyError)
        | Some sd =>
            match load_state_dict (h m) sd with
            | Err e => (h, Err e)
            | Ok sd' => load_models ms ckpt (fun m' => if Nat.eqb m' m then sd' else h m')
            end
        end
    end.
End Utils.

(** One group of models, as the caller may pass it: a tuple or list, another iterable (such as
    an nn.ModuleList), or something that cannot be iterated. *)
Inductive group : Type := GSeq (ms : list nat) | GIter (ms : list nat) | GNot.
(** [model_iter]: a tuple or list of groups, or a dict of groups *)
Inductive model_iter : Type := MSeq (gs : list group) | MDict (gs : dict group).

Definition is_seq (g : group) : bool := match g with GSeq _ => true | _ => false end.
Definition models_of (g : group) : res (list nat) :=
  match g with GSeq ms | GIter ms => Ok ms | GNot => Err TypeError end.

(** [f"{str(i)}_{name}_{str(j)}"], /repo/combinators/utils.py:61 *)
Definition model_key (i : nat) (name : string) (j : nat) : string :=
  (show i ++ "_" ++ name ++ "_" ++ show j)%string.

(** the inner loop, /repo/combinators/utils.py:60-61, [j] counting from its argument *)
Fixpoint add_models (i : nat) (name : string) (j : nat) (ms : list nat) (d : dict nat) : dict nat :=
  match ms with
  | [] => d
  | m :: ms' => add_models i name (S j) ms' (dset (model_key i name j) m d)
  end.
(** the outer loop, /repo/combinators/utils.py:55-61 *)
Fixpoint add_groups (i : nat) (gs : list (string * group)) (d : dict nat) : res (dict nat) :=
  match gs with
  | [] => Ok d
  | (name, g) :: gs' => rbind (models_of g) (fun ms => add_groups (S i) gs' (add_models i name 0 ms d))
  end.

(** models_as_dict, /repo/combinators/utils.py:47-62 *)
Definition models_as_dict (it : model_iter) (names : list string) : res (dict nat) :=
  match it with
  | MSeq gs =>
      if Nat.eqb (length names) (length gs) then add_groups 0 (combine names gs) [] else Err AssertionError
  | MDict gs =>
      if forallb (fun kv => is_seq (snd kv)) gs && Nat.eqb (length names) (length gs)
      then add_groups 0 gs [] else Err AssertionError
  end.
