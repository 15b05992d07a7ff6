(** Vocabulary for the weights of the Gibbs experiment: the densities of one step. *)
From Verif Require Export SpecGibbs.
Open Scope nat_scope.

(** the value and the recorded log-density at an address of a trace *)
Definition value_at {L : lib} (tr : trace L) (a : string) : T L := match dget a tr with Some r => rv_value r | None => tzero L end.
Definition density_at {L : lib} (tr : trace L) (a : string) : T L := match dget a tr with Some r => rv_logp r | None => tzero L end.
(** the same tensor, with or without its gradient *)
Definition same_tensor {L : lib} (x y : T L) : Prop := y = x \/ y = detach L x.

Section Densities.
  Context {L : lib} (N : nets L) (T_ : nat) (frames : T L).
  (** [v]: the value at each address; step [t] of sweep [s], where [t = T_] is the digit step *)
  Context (v : string -> T L) (t s : nat).

  Definition digits_at : string := z_what (if Nat.eqb t T_ then Z.of_nat s else (Z.of_nat s - 1)%Z).
  Definition position_at (i : nat) : string := current_where (Z.of_nat t) (Z.of_nat s) i.
  (** The prior of the position at time [i]: centred at the position before it, but never at one that
      the sweep has not reached (C52 says what is wrong with that). *)
  Definition position_prior (i : nat) : D L :=
    match i with O => prior_where0 L N | S j => prior_wheret L N (v (z_where (Z.of_nat (Nat.min j t)) (Z.of_nat s))) end.
  (** the terms of the log-joint of positions, digits and frames, in the order of [posterior_addresses] *)
  Definition joint_logp : list (T L) :=
    map (fun i => logp L (position_prior i) (v (position_at i))) (seq 0 T_)
    ++ [logp L (prior_what L N) (v digits_at); logp L (recon L N (map (fun i => v (position_at i)) (seq 0 T_)) (v digits_at)) frames].

  (** [F]: the log-density of the new value under the encoder of the step, given the frames, and the
      digits (position step) or all positions (digit step) *)
  Definition forward_logp (F : T L) : Prop :=
    exists f, same_tensor frames f /\
    if Nat.eqb t T_ then
      exists ws, Forall2 same_tensor (map (fun i => v (z_where (Z.of_nat i) (Z.of_nat s))) (seq 0 T_)) ws /\
        F = logp L (digit_all L N f ws) (v (z_what (Z.of_nat s)))
    else
      exists w zs, same_tensor (v (z_what (Z.of_nat s - 1))) w /\ v (z_where (Z.of_nat t) (Z.of_nat s)) = coor_cat L N zs /\
        F = logp L (coor_all L N f (Some w) (Z.of_nat t) zs) (v (z_where (Z.of_nat t) (Z.of_nat s))).
  (** the log-density of the replaced value under the same encoder *)
  Definition reverse_logp : T L :=
    if Nat.eqb t T_ then
      logp L (digit_all L N frames (map (fun i => v (z_where (Z.of_nat i) (Z.of_nat s))) (seq 0 T_))) (v (z_what (Z.of_nat s - 1)))
    else
      let old := v (z_where (Z.of_nat t) (Z.of_nat s - 1)) in
      logp L (coor_all L N frames (Some (v (z_what (Z.of_nat s - 1)))) (Z.of_nat t) (map (coor_slice L N old) (seq 0 (n_objects L N)))) old.
  (** [l]: the log-densities of the values of the initial importance sampling under the encoders *)
  Definition initial_logp (l : list (T L)) : Prop :=
    exists zs : nat -> list (T L), (forall i, i < T_ -> v (z_where (Z.of_nat i) 0) = coor_cat L N (zs i)) /\
    l = map (fun i => logp L (coor_all L N frames None (Z.of_nat i) (zs i)) (v (z_where (Z.of_nat i) 0))) (seq 0 T_)
        ++ [logp L (digit_all L N frames (map (fun i => v (z_where (Z.of_nat i) 0)) (seq 0 T_))) (v (z_what 0))].
End Densities.

(** The addresses of the sample that step [t] of sweep [S s] starts from. *)
Definition previous_addresses (T_ t s : nat) : list string :=
  match t with O => posterior_addresses T_ T_ s | S t' => posterior_addresses T_ t' (S s) end.

(** The resampler leaves observations, and only those, observed. *)
Definition keeps_observed {L : lib} (rs : resampler L) : Prop := forall tr lw kws items lw2,
  wf_dict tr -> outcome (rs_call rs tr lw kws) (Ok (items, lw2)) ->
  forall a r r', dget a tr = Some r -> dget a (as_trace items) = Some r' -> is_observed r' = is_observed r.
