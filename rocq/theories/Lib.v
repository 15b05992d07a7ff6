(** The boundary with torch and probtorch, and the objects that live on it:
    random variables, traces, Python values.

    torch and probtorch are *not* part of /repo.  Every operation of theirs that the
    modelled code calls is a field of the record [lib]; theorems quantify over every
    [lib], and state explicitly which of the laws of [lib_laws] they need.  Concrete
    instances (integer scalars for execution, real tensors with broadcasting) are given
    in later files, so the laws are satisfiable. *)
From Verif Require Export Base.

(** probtorch.stochastic.Provenance, used in /repo/combinators/inference.py:208-213,379,
    /repo/combinators/program.py:91, /repo/combinators/trace/utils.py:61,65,73. *)
Inductive prov : Type := SAMPLED | OBSERVED | REUSED.
Definition prov_eqb (a b : prov) : bool :=
  match a, b with
  | SAMPLED, SAMPLED | OBSERVED, OBSERVED | REUSED, REUSED => true
  | _, _ => false
  end.

(** Python values that flow through programs: inputs [c], outputs, keyword arguments,
    [ix].  [VTensor] is a torch.Tensor; [VObj n] is any other object. *)
Inductive pyval (T : Type) : Type :=
| VNone
| VBool (b : bool)
| VInt (z : Z)
| VStr (s : string)
| VTensor (t : T)
| VTup (l : list (pyval T))
| VDict (d : list (string * pyval T))
| VObj (n : nat).
Arguments VNone {T}. Arguments VBool {T} b. Arguments VInt {T} z. Arguments VStr {T} s.
Arguments VTensor {T} t. Arguments VTup {T} l. Arguments VDict {T} d. Arguments VObj {T} n.

Definition is_none {T} (v : pyval T) : bool := match v with VNone => true | _ => false end.
(** Python truthiness, as used by [_debug or self._debug]. *)
Definition truthy {T} (v : pyval T) : bool :=
  match v with
  | VNone => false | VBool b => b | VInt z => negb (Z.eqb z 0) | VStr s => negb (String.eqb s "")
  | VTup l => match l with [] => false | _ => true end
  | VDict d => match d with [] => false | _ => true end
  | VTensor _ | VObj _ => true
  end.

(** torch / probtorch operations. *)
Record lib : Type := mkLib {
  T : Type;                         (* torch.Tensor, or a Python float *)
  D : Type;                         (* torch.distributions.Distribution *)
  tzero : T;                        (* the Python float 0.0 *)
  tadd : T -> T -> T;               (* + *)
  tsub : T -> T -> T;               (* - *)
  detach : T -> T;                  (* Tensor.detach *)
  is_tensor : T -> bool;            (* isinstance(x, torch.Tensor) *)
  to_tensor : T -> T;               (* torch.tensor(x) *)
  eq_zero : T -> res bool;          (* truth value of (x == 0.0): raises on multi-element tensors *)
  tensor_equal : T -> T -> bool;    (* torch.equal *)
  bsum : pyval T -> pyval T -> T -> T; (* probtorch batch_sum(sample_dims, batch_dim) of a log_prob *)
  logp : D -> T -> T;               (* Distribution.log_prob *)
  lj_ok : pyval T -> bool -> prov -> bool;
     (* does Trace.log_joint(reparameterized=.) accept a node with this .reparameterized and provenance *)
  order : list string -> list string (* iteration order of a Python set of strings *)
}.

(** Laws. Each theorem lists the ones it uses. *)
Record lib_laws (L : lib) : Prop := mkLaws {
  tadd_comm : forall a b, tadd L a b = tadd L b a;
  tadd_assoc : forall a b c, tadd L a (tadd L b c) = tadd L (tadd L a b) c;
  tadd_zero : forall a, tadd L (tzero L) a = a;
  order_perm : forall l, Permutation (order L l) l
}.

Section Objects.
  Context (L : lib).
  Notation T := (T L). Notation D := (D L).

  (** What a node of a trace carries besides its value: a RandomVariable has a
      distribution, an ImproperRandomVariable a log-density function, and any other
      subclass of probtorch's _RandomVariable is [OtherRV]
      (/repo/combinators/trace/utils.py:254-270, /repo/combinators/resamplers.py:91-107). *)
  Inductive density : Type :=
  | Proper (d : D)
  | Improper (f : T -> T)
  | OtherRV.

  Record rv : Type := mkRV {
    rv_den : density;
    rv_value : T;
    rv_logp : T;                    (* .log_prob *)
    rv_prov : prov;
    rv_rep : bool;                  (* .reparameterized *)
    rv_resamplable : bool
  }.

  (** probtorch Trace: an ordered dict of nodes.  Its [_cond_trace] is passed separately
      during a run and is reset to None when the run ends
      (/repo/combinators/program.py:77,105). *)
  Definition trace := dict rv.

  Definition is_observed (r : rv) : bool := prov_eqb (rv_prov r) OBSERVED.
  Definition is_reused (r : rv) : bool := prov_eqb (rv_prov r) REUSED.

  (** Addresses of the nodes that are not OBSERVED: the [tau_filter] comprehension of
      /repo/combinators/program.py:89-98 and /repo/combinators/inference.py:377-382.
      Every node of a probtorch trace is a _RandomVariable, so the isinstance test of the
      source is always true and is dropped. *)
  Definition latent_addrs (tr : trace) : list string :=
    map fst (filter (fun kv => negb (is_observed (snd kv))) tr).

  (** probtorch Trace.log_joint(sample_dims, batch_dim, nodes, reparameterized): sums
      batch_sum(log_prob) over the given names that are in the trace, starting from the
      float 0.0; names that are not in the trace are skipped; raises ValueError on a node
      rejected by the reparameterized check.  [nodes] is a Python set: it is iterated in
      the order [order L]. *)
  Fixpoint log_joint_from (sd bd rep : pyval T) (names : list string) (tr : trace) (acc : T) : res T :=
    match names with
    | [] => Ok acc
    | n :: ns =>
        match dget n tr with
        | None => log_joint_from sd bd rep ns tr acc
        | Some r =>
            if lj_ok L rep (rv_rep r) (rv_prov r)
            then log_joint_from sd bd rep ns tr (tadd L acc (bsum L sd bd (rv_logp r)))
            else Err ValueError
        end
    end.
  Definition log_joint (sd bd rep : pyval T) (nodes : list string) (tr : trace) : res T :=
    log_joint_from sd bd rep (order L nodes) tr (tzero L).
End Objects.
Arguments Proper {L} d. Arguments Improper {L} f. Arguments OtherRV {L}.
Arguments mkRV {L}. Arguments rv_den {L}. Arguments rv_value {L}. Arguments rv_logp {L}.
Arguments rv_prov {L}. Arguments rv_rep {L}. Arguments rv_resamplable {L}.
Arguments is_observed {L}. Arguments is_reused {L}. Arguments latent_addrs {L}.
Arguments log_joint {L}. Arguments log_joint_from {L}.
