(** Specification of property C92: calling a sampler several times and averaging the weights. *)
From Verif Require Export SpecBound.

(** [n] calls of the sampler [t], one after the other, with the same arguments *)
Fixpoint several {L : lib} (n : nat) (t : inf L) (c : pyval (T L)) (kws : dict (pyval (T L))) : M L (list (out L)) :=
  match n with
  | 0 => ret []
  | S n' => mbind (run t c kws) (fun o => mbind (several n' t c kws) (fun os => ret (o :: os)))
  end.

(** the logarithm of the average of the weights the calls returned *)
Definition log_average {L : lib} (M : measures L) (x : res (list (out L)) * st L) : R :=
  match fst x with
  | Ok os => ln (rsum (map (fun o => exp (lw M (out_lw o))) os) / INR (length os))
  | Err _ => 0%R
  end.

(** called when nothing is conditioned, [t] returns and leaves the global store as it was *)
Definition repeatable {L : lib} (t : inf L) (c : pyval (T L)) (kws : dict (pyval (T L))) : Prop :=
  forall s r s', clean s -> outcome (run t c kws s) (r, s') -> (exists o, r = Ok o) /\ store s' = store s.
