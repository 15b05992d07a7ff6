(** Vocabulary for the checkpoint properties. *)
From Verif Require Export Utils.

(** [named it names gs]: the caller passed the named groups of models [gs], as a sequence of
    groups with a list of names or as a dict of groups. *)
Inductive named : model_iter -> list string -> list (string * list nat) -> Prop :=
| named_seq names gs mss : length names = length gs ->
    Forall2 (fun g ms => models_of g = Ok ms) gs mss ->
    named (MSeq gs) names (combine names mss)
| named_dict names gs mss : length names = length gs ->
    Forall2 (fun g ms => fst g = fst ms /\ snd g = GSeq (snd ms)) gs mss ->
    named (MDict gs) names mss.

(** the model at position (i, j) *)
Definition model_at (gs : list (string * list nat)) (i j m : nat) : Prop :=
  exists name ms, nth_error gs i = Some (name, ms) /\ nth_error ms j = Some m.

(** a state dict that a module with state [cur] accepts: same names in the same order, and
    every tensor fits *)
Definition loadable {W} (fits : W -> W -> bool) (cur saved : dict W) : Prop :=
  dkeys cur = dkeys saved /\
  forall k w w', dget k cur = Some w -> dget k saved = Some w' -> fits w w' = true.
