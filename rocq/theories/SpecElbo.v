(** Specification of what training with nvo_avo minimises (property C87). *)
From Verif Require Export SpecSampler SpecBound.

Section Elbo.
  Context {LV : lib} (W : array_view LV) (N B : nat).
  (** a loss: one finite number per batch entry; such tensors are added entry by entry *)
  Definition loss_tensor (x : T LV) : Prop :=
    is_tensor LV x = true /\ shape (to_arr W x) = [B] /\ forall b, b < B -> exists r, at_ (to_arr W x) [b] = Fin r.
  Definition loss_at (b : nat) (x : T LV) : R := fin (at_ (to_arr W x) [b]).
  Definition losses_add : Prop := forall x y, loss_tensor x -> loss_tensor y ->
    loss_tensor (tadd LV x y) /\ forall b, b < B -> loss_at b (tadd LV x y) = (loss_at b x + loss_at b y)%R.

  (** the average of the log-weights of the particles of batch entry [b] *)
  Definition average_log_weight (b : nat) (o : out LV) : R :=
    (rsum (map (fun s => particle_weight W s b (out_lw o)) (seq 0 N)) / INR N)%R.
  (** minus the loss of a run, for batch entry [b] *)
  Definition minus_loss (b : nat) (x : res (out LV) * st LV) : R :=
    match fst x with
    | Ok o => match out_loss o with Some l => (- loss_at b l)%R | None => 0%R end
    | Err _ => 0%R
    end.
  (** the losses that a run can return are bounded *)
  Definition bounded_losses (supp : D LV -> T LV -> Prop) (b : nat) (t : stree LV (res (out LV) * st LV)) : Prop :=
    exists K, forall o s', arises W B supp t (Ok o, s') -> (- K <= minus_loss b (Ok o, s') <= K)%R.
End Elbo.

(** The logarithm of the factor by which the step from point [z] to point [z'] multiplies a
    particle's weight: densities of the two targets, probabilities of the two kernels. *)
Definition increment {LS : lib} (M : measures LS) (pb1 : problem LS) (k : nat) (z z' : T LS) : R :=
  (ln (path_density M pb1 (S k) z') + lw M (logp LS (pb_rev pb1 k z') z)
   - (lw M (logp LS (pb_fwd pb1 k z) z') + ln (path_density M pb1 k z)))%R.
(** the increments are bounded on the points that can be drawn *)
Definition bounded_path {LV LS : lib} (N B : nat) (P : population LV LS) (M : measures LS) (supp : D LV -> T LV -> Prop)
    (pb : problem LV) (pb1 : problem LS) : Prop :=
  exists (points : nat -> T LS -> Prop) (U : R),
    (forall v s b, supp (pb_d0 pb) v -> s < N -> b < B -> points 0 (part P s b v)) /\
    (forall k v0 v s b, supp (pb_fwd pb k v0) v -> s < N -> b < B -> points (S k) (part P s b v)) /\
    forall k z z', points k z -> points (S k) z' -> (- U <= increment M pb1 k z z' <= U)%R.
