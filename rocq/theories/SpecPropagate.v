(** Specification of Gaussian propagation (C49). *)
From Verif Require Export Propagate.
Open Scope R_scope.

(** An expectation: a linear operator on real random variables over some probability space. *)
Record expectation {O : Type} (E : (O -> R) -> R) : Prop := mkExpectation {
  E_ext : forall X Y, (forall w, X w = Y w) -> E X = E Y;
  E_add : forall X Y, E (fun w => X w + Y w) = E X + E Y;
  E_scale : forall c X, E (fun w => c * X w) = c * E X;
  E_one : E (fun _ => 1) = 1 }.
Definition covar {O} (E : (O -> R) -> R) (X Y : O -> R) : R := E (fun w => X w * Y w) - E X * E Y.

(** the random vector (z 0, ..., z (n-1)) has the mean and covariance of [J] *)
Definition has_moments {O} (E : (O -> R) -> R) (n : nat) (z : nat -> O -> R) (J : mvn) : Prop :=
  vlen (loc J) = n /\ mrows (cov J) = n /\ mcols (cov J) = n /\
  (forall i, (i < n)%nat -> E (z i) = vat (loc J) i) /\
  (forall i j, (i < n)%nat -> (j < n)%nat -> covar E (z i) (z j) = ment (cov J) i j).

(** the vector x followed by the vector y *)
Definition followed_by {O} (n : nat) (x y : nat -> O -> R) (i : nat) : O -> R :=
  if (i <? n)%nat then x i else y (i - n)%nat.

(** inputs of matching shapes: N of dimension n, F of size k x n, t of size k, B of size k x k *)
Definition shapes (n k : nat) (N : mvn) (F : mat) (t : vec) (B : mat) : Prop :=
  vlen (loc N) = n /\ mrows (cov N) = n /\ mcols (cov N) = n /\
  mrows F = k /\ mcols F = n /\ vlen t = k /\ mrows B = k /\ mcols B = k.

Definition symmetric (C : mat) : Prop :=
  mrows C = mcols C /\ forall i j, (i < mrows C)%nat -> (j < mrows C)%nat -> ment C i j = ment C j i.
(** u^T C u *)
Definition quad (C : mat) (u : nat -> R) : R :=
  sumn (mrows C) (fun i => sumn (mrows C) (fun j => u i * ment C i j * u j)).
Definition semidefinite (C : mat) : Prop := forall u, 0 <= quad C u.
Definition definite (C : mat) : Prop := forall u, (exists i, (i < mrows C)%nat /\ u i <> 0) -> 0 < quad C u.

