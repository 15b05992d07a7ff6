(** Vocabulary for the properties of the Gibbs experiment, and a small instance. *)
From Verif Require Export Gibbs Instances.
Open Scope nat_scope.

(** The address of the current position at time [t] while step [ix_t] of sweep [sweep] is done: the
    times up to [ix_t] have been updated in this sweep. *)
Definition current_where (ix_t sweep : Z) (t : nat) : string :=
  z_where (Z.of_nat t) (if (Z.of_nat t <=? ix_t)%Z then sweep else (sweep - 1)%Z).

(** The addresses of a sample of the posterior after step [t] of sweep [s] ([t = T_]: the digits are
    updated too): every position at its current address, the digits, the frames. *)
Definition posterior_addresses (T_ t s : nat) : list string :=
  map (current_where (Z.of_nat t) (Z.of_nat s)) (seq 0 T_)
  ++ [z_what (if Nat.eqb t T_ then Z.of_nat s else (Z.of_nat s - 1)%Z); "recon"].
(** The address that step updates, before the update. *)
Definition replaced_address (T_ t s : nat) : string :=
  if Nat.eqb t T_ then z_what (Z.of_nat s - 1) else z_where (Z.of_nat t) (Z.of_nat s - 1).

(** torch: sums and differences with a tensor are tensors; a sum of log-densities is a tensor *)
Record tensor_laws (L : lib) : Prop := mkTL {
  tl_add : forall a b, is_tensor L (tadd L a b) = is_tensor L a || is_tensor L b;
  tl_sub : forall a b, is_tensor L (tsub L a b) = is_tensor L a || is_tensor L b;
  tl_sum : forall sd bd d v, is_tensor L (bsum L sd bd (logp L d v)) = true }.
(** The resampler keeps the addresses of the trace it is given. *)
Definition keeps_addresses {L : lib} (rs : resampler L) : Prop := forall tr lw kws items lw2,
  wf_dict tr -> outcome (rs_call rs tr lw kws) (Ok (items, lw2)) ->
  forall a, In a (dkeys (as_trace items)) <-> In a (dkeys tr).
(** The exception [e] comes out of the resampler, called with a sample of the posterior after some
    step of some sweep. *)
Definition resampler_raises {L : lib} (T_ : nat) (rs : resampler L) (e : exn) : Prop :=
  exists t s tr lw kws, wf_dict tr /\ (forall a, In a (dkeys tr) <-> In a (posterior_addresses T_ t s)) /\
    outcome (rs_call rs tr lw kws) (Err e).
(** Calls that do not pass by keyword what is passed by position. *)
Definition plain_call {V} (kws : dict V) : Prop :=
  wf_dict kws /\ forall k, In k ["self"; "c"; "fn"; "trace"] -> ~ In k (dkeys kws).
(** Every latent variable of the target was supplied by the proposal, with the proposal's value; the
    frames are the only other node. *)
Definition supplied {L : lib} (px : pextras L) : Prop :=
  forall a nd, dget a (px_target_trace px) = Some nd ->
    (a = "recon" /\ rv_prov nd = OBSERVED) \/
    (rv_prov nd = REUSED /\ exists nd', dget a (px_proposal_trace px) = Some nd' /\ rv_value nd = rv_value nd').

(** integer networks: frames [n] stands for a video of [n] frames *)
Definition nets_ex : nets ZL := mkNets ZL
  (fun fr => let '(_, v, _) := fr in Z.to_nat v) 2
  (fun _ _ t zs => (t + Z.of_nat (length zs))%Z) (fun zs => fold_right (tadd ZL) (zten 0) zs) (fun z _ => z)
  (fun _ _ t zs => (t + Z.of_nat (length zs))%Z)
  (fun _ zs => Z.of_nat (length zs)) 0%Z (fun loc => let '(_, v, _) := loc in v) 1%Z
  (fun zs _ => Z.of_nat (length zs)) true.
