(** Model of GMM.sample, /repo/experiments/annealing/models.py:214-231, as a distribution.

    A random value is given by its expectations: [rnd A] maps a function to its expected value.
    Values are abstract ([V]); a component is given by its [log_prob] and by the integral over
    the values.  The device, and [view(xs.size())], which does nothing, are left out. *)
From Coq Require Import Reals.
From Verif Require Export Tempering.
Open Scope R_scope.

Definition rnd (A : Type) : Type := (A -> R) -> R.
Definition rret {A} (a : A) : rnd A := fun f => f a.
Definition rthen {A B} (m : rnd A) (k : A -> rnd B) : rnd B := fun f => m (fun a => k a f).
(** one of the entries of a list, all equally likely *)
Definition uniform {A} (l : list A) : rnd A := fun f => rsum (map f l) / INR (length l).
(** n independent draws *)
Fixpoint draws {A} (n : nat) (m : rnd A) : rnd (list A) :=
  match n with
  | O => rret []
  | S n' => rthen m (fun a => rthen (draws n' m) (fun l => rret (a :: l)))
  end.
(** the draws for the components k, k+1, ..., k+n-1, concatenated *)
Fixpoint collect {A} (m : nat -> rnd (list A)) (k n : nat) : rnd (list A) :=
  match n with
  | O => rret []
  | S n' => rthen (m k) (fun x => rthen (collect m (S k) n') (fun l => rret (x ++ l)))
  end.
(** all lists of length n with entries below K *)
Fixpoint tuples (K n : nat) : list (list nat) :=
  match n with O => [[]] | S n' => flat_map (fun k => map (cons k) (tuples K n')) (seq 0 K) end.
(** the permutations of 0..n-1 *)
Definition perms (n : nat) : list (list nat) :=
  filter (fun p => if ListDec.NoDup_dec Nat.eq_dec p then true else false) (tuples n n).

Section GMM.
  Context {V : Type} (integral : (V -> R) -> R) (comps : list (V -> R)) (dflt : V).
  (** components[k].sample() *)
  Definition component (k : nat) : rnd V := fun g => integral (fun v => g v * exp (nth k comps (fun _ => 0) v)).
  (** GMM.sample(sample_shape=(n,)): the components' indices are drawn, counted, the counted
      numbers of values are drawn component by component, and the values are shuffled *)
  Definition gmm_sample (n : nat) : rnd (list V) :=
    rthen (draws n (uniform (seq 0 (length comps)))) (fun zs =>
    rthen (collect (fun k => draws (count_occ Nat.eq_dec zs k) (component k)) 0 (length comps)) (fun xs =>
    rthen (uniform (perms (length xs))) (fun ix =>
    rret (map (fun i => nth i xs dflt) ix)))).
End GMM.

(** the shape of the tensor GMM.sample returns for any sample_shape, without the dimension of the
    values: [zs] has the sample shape; for each component, (n_k, *zs.shape[1:-1]); concatenated,
    the n_k add up to the number of elements of zs *)
Definition shape_numel (s : list nat) : nat := fold_right Nat.mul 1%nat s.
Definition gmm_sample_shape (sample_shape : list nat) : list nat :=
  shape_numel sample_shape :: removelast (tl sample_shape).
