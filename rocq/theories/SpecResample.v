(** Specification vocabulary for the resampling properties. *)
From Verif Require Export Spec Resamplers.

(** The log-weights of all particles of one batch entry: [r] are the indices that follow the
    particle's index (indices beyond the rank of the weight are ignored). *)
Definition column (lw : arr) (r : list nat) : list ereal :=
  map (fun k => at_ lw (k :: firstn (length (shape lw) - 1) r)) (seq 0 (nth 0 (shape lw) 0)).

(** [x'] is made of whole slices of [x]: its slice [k] is the slice [anc k] of [x], where the
    ancestor may depend on the indices [rest] inside the slice. *)
Definition gathered (x x' : arr) (anc : nat -> list nat -> nat) : Prop :=
  shape x' = shape x /\
  forall k rest, In (k :: rest) (indices (shape x)) -> at_ x' (k :: rest) = at_ x (anc k rest :: rest).

Definition moves {L : lib} (r : rv L) : bool := rv_resamplable r && negb (is_observed r).

Definition resampled_rv {L : lib} (W : array_view L) (anc : nat -> list nat -> nat) (r r' : rv L) : Prop :=
  if moves r
  then gathered (to_arr W (rv_value r)) (to_arr W (rv_value r')) anc /\
       gathered (to_arr W (rv_logp r)) (to_arr W (rv_logp r')) anc /\
       rv_den r' = rv_den r /\ rv_prov r' = rv_prov r
  else r' = r.

Definition resampled_trace {L : lib} (W : array_view L) (anc : nat -> list nat -> nat) (tr tr' : trace L) : Prop :=
  Forall2 (fun kr kr' => fst kr' = fst kr /\ resampled_rv W anc (snd kr) (snd kr')) tr tr'.

(** The systematic ancestor of particle [k] in a batch entry: the batch entry is given by the
    first [nb] indices after the particle's; one offset [u] per batch entry. *)
Definition ancestor (lw : arr) (nb : nat) (u : list nat -> R) (k : nat) (rest : list nat) : nat :=
  nth k (ancestors_of (column lw (firstn nb rest)) (u (firstn nb rest))) 0.

(** 0 when there is no batch dimension, 1 otherwise *)
Definition batch_rank {L : lib} (kws : dict (pyval (T L))) : nat :=
  if is_none (kwarg "batch_dim" VNone kws) then 0 else 1.

(** An output dict after resampling: entries whose key is an address of the new trace become
    the value there; all others are unchanged. *)
Definition output_follows {L : lib} (tr2 : trace L) (c1 c2 : dict (pyval (T L))) : Prop :=
  Forall2 (fun kv kv' => fst kv' = fst kv /\
     snd kv' = match dget (fst kv) tr2 with Some r => VTensor (rv_value r) | None => snd kv end) c1 c2.

(** A node that Systematic can move, for an index array of shape [sh]: value and log-density
    are tensors whose leading dimensions are [sh], and it is a RandomVariable or an
    ImproperRandomVariable. *)
Definition movable {L : lib} (W : array_view L) (sh : list nat) (r : rv L) : Prop :=
  moves r = true ->
  is_tensor L (rv_value r) = true /\ firstn (length sh) (shape (to_arr W (rv_value r))) = sh /\
  is_tensor L (rv_logp r) = true /\ firstn (length sh) (shape (to_arr W (rv_logp r))) = sh /\
  rv_den r <> OtherRV.
