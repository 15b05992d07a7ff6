(** Sampling trees: the randomness of a run made explicit.

    A run of a stochastic program is a tree whose inner nodes are calls of
    [dist.sample()/rsample()] or [torch.rand] and whose leaves are the final results; the
    random number generator is whoever walks the tree.  Statements "for every random
    outcome" quantify over the leaves ([outcome]); statements about expectations
    (Proper*.v) integrate over them. *)
From Verif Require Export Lib.

(** What is drawn: a sample of a distribution with a sample_shape, reparameterized or not;
    or [torch.rand] offsets for a resampler. *)
Inductive draw_kind (L : lib) : Type :=
| DrawDist (d : D L) (rep : bool) (shape : pyval (T L))
| DrawRand.
Arguments DrawDist {L}. Arguments DrawRand {L}.

Inductive stree (L : lib) (A : Type) : Type :=
| Leaf (a : A)
| Draw (d : draw_kind L) (k : T L -> stree L A).
Arguments Leaf {L A} a. Arguments Draw {L A} d k.

Section Tree.
  Context {L : lib}.

  Fixpoint tbind {A B} (t : stree L A) (f : A -> stree L B) : stree L B :=
    match t with
    | Leaf a => f a
    | Draw d k => Draw d (fun v => tbind (k v) f)
    end.

  (** [outcome t a]: some sequence of drawn values leads to the result [a]. *)
  Inductive outcome {A} : stree L A -> A -> Prop :=
  | out_leaf a : outcome (Leaf a) a
  | out_draw d k v a : outcome (k v) a -> outcome (Draw d k) a.
End Tree.
