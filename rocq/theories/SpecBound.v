(** Specification of the evidence bound (property C86): what is estimated, and positivity of
    expectations. *)
From Verif Require Export SpecParticles.

(** the log-weight a run on one particle returns *)
Definition log_weight_of {L : lib} (M : measures L) (x : res (out L) * st L) : R :=
  match fst x with Ok o => lw M (out_lw o) | Err _ => 0%R end.

(** the logarithm of the average weight of the N particles of batch entry [b] *)
Definition log_evidence {LV : lib} (W : array_view LV) (N b : nat) (x : res (out LV) * st LV) : R :=
  match fst x with
  | Ok o => ln (rsum (map (fun s => exp (particle_weight W s b (out_lw o))) (seq 0 N)) / INR N)
  | Err _ => 0%R
  end.

(** Sums (integrals) over a sample space are additive, and larger functions have larger sums. *)
Record positive_sums {L : lib} (M : measures L) : Prop := mkPositive {
  int_plus : forall k f g, integral M k (fun v => (f v + g v)%R) = (integral M k f + integral M k g)%R;
  int_mono : forall k f g, (forall v, (f v <= g v)%R) -> (integral M k f <= integral M k g)%R }.

(** The same for the draws of a population, where [supp d v] says that [v] can be drawn from
    [d]; for the offsets of resampling, of functions that are bounded. *)
Section Positive.
  Context {LV LS : lib} (W : array_view LV) (N B : nat) (P : population LV LS) (supp : D LV -> T LV -> Prop).
  Definition offsets (v : T LV) : Prop := forall b, b < B -> (0 <= offset W b v < 1)%R.
  Definition bounded (f : T LV -> R) : Prop := exists K, forall v, offsets v -> (- K <= f v <= K)%R.
  Record positive_population : Prop := mkPositivePopulation {
    supp_particles : forall d v, supp d v -> particles W N B v;
    mean_mono : forall d f g, (forall v, supp d v -> (f v <= g v)%R) -> (mean P d f <= mean P d g)%R;
    offset_mono : forall f g, bounded f -> bounded g -> (forall v, offsets v -> (f v <= g v)%R) ->
      (mean_offset P f <= mean_offset P g)%R;
    offset_affine : forall f a c, bounded f -> (0 <= a)%R ->
      mean_offset P (fun v => (a * f v + c)%R) = (a * mean_offset P f + c)%R }.

  (** the results of a run all of whose draws can be drawn *)
  Inductive arises {A} : stree LV A -> A -> Prop :=
  | arises_leaf a : arises (Leaf a) a
  | arises_dist d rep sh k v a : supp d v -> arises (k v) a -> arises (Draw (DrawDist d rep sh) k) a
  | arises_rand k v a : offsets v -> arises (k v) a -> arises (Draw DrawRand k) a.

  (** the log-weights of the particles of batch entry [b] that a run returns are bounded *)
  Definition bounded_weights (b : nat) (t : stree LV (res (out LV) * st LV)) : Prop :=
    exists K, forall o s', arises t (Ok o, s') -> forall s, s < N -> (- K <= particle_weight W s b (out_lw o) <= K)%R.
End Positive.

(** no Resample among the parts of a program *)
Fixpoint no_resample {L : lib} (t : inf L) : Prop :=
  match t with
  | IProg _ _ _ => True
  | IResample _ _ _ _ _ _ => False
  | IExtend _ p f _ => no_resample p /\ no_resample f
  | ICompose _ q2 q1 _ => no_resample q2 /\ no_resample q1
  | IPropose _ p q _ _ _ => no_resample p /\ no_resample q
  end.
