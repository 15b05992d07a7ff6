(** Specification of the simulated data set (C54, C55). *)
From Coq Require Export Reals.
From Verif Require Export Base.
Open Scope R_scope.

Definition inside (x : R) : Prop := -1 <= x <= 1.

(** One step of a ball on [-1, 1]: it moves from [x] by [v]; past a wall it comes back by the
    overshoot and its velocity changes sign. *)
Inductive bounces : R -> R -> R -> R -> Prop :=
| free x v : inside (x + v) -> bounces x v (x + v) v
| low_wall x v : x + v < -1 -> bounces x v (-1 + (-1 - (x + v))) (- v)
| high_wall x v : 1 < x + v -> bounces x v (1 - ((x + v) - 1)) (- v).

(** A video of [n] frames: positions [X] and velocities [W] with which each frame is left *)
Definition trajectory (n : nat) (x0 v0 : R) (X W : nat -> R) : Prop :=
  X 0%nat = x0 /\ W 0%nat = v0 /\ forall t, (S t < n)%nat -> bounces (X t) (W t) (X (S t)) (W (S t)).
