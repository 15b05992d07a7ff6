(** Specifications for the annealing experiment: the Markov chain and its importance weight,
    independently of the combinators. *)
From Coq Require Import Reals.
From Verif Require Export Spec Annealing.

(** [sum_below n f] = f 0 + ... + f (n-1) *)
Fixpoint sum_below (n : nat) (f : nat -> R) : R :=
  match n with O => 0%R | S n' => (sum_below n' f + f n')%R end.

Section Chain.
  Context {L : lib}.
  Notation T := (T L). Notation D := (D L).

  (** a target: a normalised distribution (with its reparameterized flag) or an unnormalised
      log-density *)
  Inductive target : Type := TDist (d : D) (rep : bool) | TDens (f : T -> T).
  Definition target_logp (t : target) (v : T) : T := match t with TDist d _ => logp L d v | TDens f => f v end.
  Definition target_prog (oid : nat) (name : string) (t : target) : inf L :=
    match t with TDist d rep => distribution_prog oid name d rep | TDens f => density_prog oid name f end.

  (** An annealing problem: the initial distribution; the targets (from the first on); forward and
      reverse kernels, each a function from the point it starts at to a distribution; the
      objects' identities. *)
  Record problem : Type := mkProblem {
    pb_d0 : D; pb_rep0 : bool;
    pb_target : nat -> target;
    pb_fwd : nat -> T -> D; pb_fwd_rep : nat -> bool;
    pb_rev : nat -> T -> D; pb_rev_rep : nat -> bool;
    pb_oid_t : nat -> nat; pb_oid_f : nat -> nat; pb_oid_r : nat -> nat }.

  (** the lists handed to vsmc for [K] steps: targets g0..gK, forward kernels g_k -> g_(k+1),
      reverse kernels g_(k+1) -> g_k *)
  Definition pb_targets (pb : problem) (K : nat) : list (inf L) :=
    distribution_prog (pb_oid_t pb 0) (gname 0) (pb_d0 pb) (pb_rep0 pb)
    :: map (fun k => target_prog (pb_oid_t pb k) (gname k) (pb_target pb k)) (seq 1 K).
  Definition pb_forwards (pb : problem) (K : nat) : list (inf L) :=
    map (fun k => kernel_prog (pb_oid_f pb k) (gname k) (gname (S k)) (pb_fwd pb k) (pb_fwd_rep pb k)) (seq 0 K).
  Definition pb_reverses (pb : problem) (K : nat) : list (inf L) :=
    map (fun k => kernel_prog (pb_oid_r pb k) (gname (S k)) (gname k) (pb_rev pb k) (pb_rev_rep pb k)) (seq 0 K).

  (** the objects of the first [K] steps are older than the ones vsmc creates, and no target is
      the same object as the reverse kernel it is extended with *)
  Definition identities (pb : problem) (base K : nat) : Prop :=
    (forall k, k <= K -> pb_oid_t pb k < base) /\ (forall k, k < K -> pb_oid_r pb k < base) /\
    (forall k, k < K -> pb_oid_t pb (S k) <> pb_oid_r pb k).

  (** the point [z_k] of a chain [z_0; ...; z_K], and what the next kernel is given: the point
      itself for [z_0], then the detached point *)
  Definition pt (zs : list T) (k : nat) : T := nth k zs (tzero L).
  Definition carried (zs : list T) (k : nat) : T := match k with O => pt zs 0 | S _ => detach L (pt zs k) end.

  (** The Markov chain: draw z_0 from the initial distribution, then each z_(k+1) from the
      forward kernel at the previous point.  Leaves carry the whole chain. *)
  Fixpoint chain (pb : problem) (shape : pyval T) (K : nat) : stree L (list T) :=
    match K with
    | O => Draw (DrawDist (pb_d0 pb) (pb_rep0 pb) shape) (fun v => Leaf [v])
    | S k => tbind (chain pb shape k) (fun zs =>
             Draw (DrawDist (pb_fwd pb k (carried zs k)) (pb_fwd_rep pb k) VNone) (fun v => Leaf (zs ++ [v])))
    end.

  (** [val] reads a number off a tensor (the entry of one particle): it is additive, and a
      detached tensor has the same numbers, whichever way it is used; what is computed from a
      log-density is a tensor. *)
  Record reads (val : T -> R) (sd bd : pyval T) (pb : problem) : Prop := mkReads {
    rd_zero : val (tzero L) = 0%R;
    rd_add : forall a b, val (tadd L a b) = (val a + val b)%R;
    rd_sub : forall a b, val (tsub L a b) = (val a - val b)%R;
    rd_detach : forall a, val (detach L a) = val a;
    rd_logp : forall d v, val (bsum L sd bd (logp L d (detach L v))) = val (bsum L sd bd (logp L d v));
    rd_target : forall k v, val (bsum L sd bd (target_logp (pb_target pb k) (detach L v)))
                            = val (bsum L sd bd (target_logp (pb_target pb k) v));
    rd_fwd : forall k x v, val (bsum L sd bd (logp L (pb_fwd pb k (detach L x)) v))
                           = val (bsum L sd bd (logp L (pb_fwd pb k x) v));
    rd_tensor_add : forall a b, is_tensor L (tadd L a b) = is_tensor L a || is_tensor L b;
    rd_tensor_sub : forall a b, is_tensor L (tsub L a b) = is_tensor L a || is_tensor L b;
    rd_tensor_logp : forall d v, is_tensor L (bsum L sd bd (logp L d v)) = true }.

  (** the importance weight of the chain in its extended space *)
  Definition ais_weight (val : T -> R) (sd bd : pyval T) (pb : problem) (K : nat) (zs : list T) : R :=
    let lp x := val (bsum L sd bd x) in
    let g0 v := logp L (pb_d0 pb) v in
    let gK v := match K with O => g0 v | S _ => target_logp (pb_target pb K) v end in
    (lp (gK (pt zs K))
     + sum_below K (fun k => lp (logp L (pb_rev pb k (pt zs (S k))) (pt zs k)))
     - lp (g0 (pt zs 0))
     - sum_below K (fun k => lp (logp L (pb_fwd pb k (pt zs k)) (pt zs (S k)))))%R.
End Chain.
Arguments target : clear implicits. Arguments problem : clear implicits.

(** [spine o l]: [l] lists, innermost first, the results of the annealing steps below (and
    including) the debug result [o]: the proposal of each step composes a kernel with the
    previous step's result, possibly resampled. *)
Inductive spine {L : lib} : out L -> list (out L) -> Prop :=
| spine_start o : out_type o = TyProgram -> spine o []
| spine_step o qo q1 l : out_type o = TyPropose -> get_sub "q_out" o = Some qo -> out_type qo = TyCompose ->
    get_sub "q1_out" qo = Some q1 -> spine q1 l -> spine o (l ++ [o])
| spine_resampled o q l : out_type o = TyResample -> get_sub "q_out" o = Some q -> spine q l -> spine o l.

Definition is_prog {L : lib} (t : inf L) : Prop := match t with IProg _ _ _ => True | _ => False end.
