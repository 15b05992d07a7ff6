(** Vocabulary for the proper weighting of the Gibbs experiment: sums over positions and digits, and the
    density of a video with its positions and digits. *)
From Verif Require Export SpecGibbsWeight SpecProper.
Close Scope R_scope.
Open Scope nat_scope.

Section Densities.
  Context {L : lib} (M : measures L) (N : nets L).
  Notation pm := (pmass M).

  (** [n] objects drawn one after the other, each from a distribution that may depend on those before
      it: the sum of [g] over all their values ... *)
  Fixpoint over_objects (d : list (T L) -> D L) (n : nat) (acc : list (T L)) (g : list (T L) -> R) : R :=
    match n with
    | O => g acc
    | S n' => integral M (space M (d acc)) (fun v => over_objects d n' (acc ++ [v]) g)
    end.
  (** ... and the density of the values [zs], after [acc] *)
  Fixpoint objects_mass (d : list (T L) -> D L) (acc zs : list (T L)) : R :=
    match zs with [] => 1%R | z :: zs' => (pm (d acc) z * objects_mass d (acc ++ [z]) zs')%R end.

  (** The tensor of all positions of a frame stands for the positions of its [K] objects, each of them a
      tensor of the shape [one]: its log-density is the sum of theirs, summing over it is summing over
      them, and slicing undoes assembling.  The positions of all frames live on one space, and so do
      the digits. *)
  Record stacked (one : T L -> Prop) (where_space what_space : Sp M) : Prop := mkStacked {
    st_one : forall fr kr t acc f g, (forall v, one v -> f v = g v) ->
      integral M (space M (coor_obj L N fr kr t acc)) f = integral M (space M (coor_obj L N fr kr t acc)) g;
    st_density : forall fr kr t zs, length zs = n_objects L N -> Forall one zs ->
      pm (coor_all L N fr kr t zs) (coor_cat L N zs) = objects_mass (coor_obj L N fr kr t) [] zs;
    st_space : forall fr kr t g,
      over_objects (coor_obj L N fr kr t) (n_objects L N) [] (fun zs => g (coor_cat L N zs)) = integral M where_space g;
    st_slice : forall zs, length zs = n_objects L N -> Forall one zs ->
      map (coor_slice L N (coor_cat L N zs)) (seq 0 (n_objects L N)) = zs;
    st_what : forall fr ws, space M (digit_all L N fr ws) = what_space }.

  (** the sum of [g] over the positions at [n] times *)
  Fixpoint over_positions (where_space : Sp M) (n : nat) (g : list (T L) -> R) : R :=
    match n with
    | O => g []
    | S n' => over_positions where_space n' (fun ws => integral M where_space (fun w => g (ws ++ [w])))
    end.

  (** The model of a video: the first positions from their prior, those of each further frame centred at
      those of the frame before; the digits from theirs; the frames given all of them. *)
  Fixpoint walk_mass (before : option (T L)) (ws : list (T L)) : R :=
    match ws with
    | [] => 1%R
    | w :: ws' => (pm (match before with None => prior_where0 L N | Some w' => prior_wheret L N w' end) w * walk_mass (Some w) ws')%R
    end.
  Definition video_mass (frames : T L) (ws : list (T L)) (z : T L) : R :=
    (walk_mass None ws * pm (prior_what L N) z * pm (recon L N ws z) frames)%R.
End Densities.

(** exp(log_weight) times [h] of the positions and the digits of sweep [s]; nothing for an exception *)
Definition weighted_sample {L : lib} (M : measures L) (T_ s : nat) (h : list (T L) -> T L -> R) (x : res (out L) * st L) : R :=
  match fst x with
  | Ok o => (exp (lw M (out_lw o)) * h (map (fun i => value_at (out_trace o) (z_where (Z.of_nat i) (Z.of_nat s))) (seq 0 T_))
                                      (value_at (out_trace o) (z_what (Z.of_nat s))))%R
  | Err _ => 0%R
  end.

(** A resampler that leaves trace and log-weight as they are: the sampler without resampling. *)
Definition idle {L : lib} (rs : resampler L) : Prop := forall tr lw kws, rs_call rs tr lw kws = Leaf (Ok (tr, lw)).
