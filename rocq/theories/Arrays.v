(** Arrays of extended reals, and the torch functions on them used by
    /repo/combinators/resamplers.py and /repo/combinators/metrics.py.

    Simplifications: arithmetic is exact (no floating-point rounding), NaN is not represented
    (the theorems assume the situations in which torch would produce one away), and a
    log-weight may be -inf (a particle of weight zero) but not +inf. *)
From Coq Require Export Reals.
From Verif Require Export Base.
Open Scope R_scope.
Open Scope nat_scope.
Open Scope list_scope.

Inductive ereal : Type := NInf | Fin (r : R).

Definition eexp (x : ereal) : R := match x with NInf => 0%R | Fin r => exp r end.
Definition elog (r : R) : ereal := if Rlt_dec 0 r then Fin (ln r) else NInf.
(** x + r and r * x, for a real r (r > 0 in the product) *)
Definition eshift (r : R) (x : ereal) : ereal := match x with NInf => NInf | Fin y => Fin (y + r)%R end.
Definition escale (r : R) (x : ereal) : ereal := match x with NInf => NInf | Fin y => Fin (r * y)%R end.
Definition fin (x : ereal) : R := match x with NInf => 0%R | Fin r => r end.

(** ** One fiber: the entries along the reduced dimension *)
Definition rsum (l : list R) : R := fold_right Rplus 0%R l.
(** F.softmax(.), without the shift by the maximum that does not change its value *)
Definition softmax (l : list ereal) : list R := map (fun x => (eexp x / rsum (map eexp l))%R) l.
(** torch.logsumexp *)
Definition logsumexp (l : list ereal) : ereal := elog (rsum (map eexp l)).
(** Tensor.cumsum *)
Fixpoint cumsum_from (acc : R) (l : list R) : list R :=
  match l with [] => [] | x :: l' => (acc + x)%R :: cumsum_from (acc + x)%R l' end.
Definition cumsum (l : list R) : list R := cumsum_from 0%R l.
(** torch.max of a non-empty fiber *)
Definition rmax (l : list R) : R := match l with [] => 0%R | x :: l' => fold_left Rmax l' x end.
(** torch.searchsorted(., right=False): the first position whose entry is not less than v *)
Fixpoint lower_bound (l : list R) (v : R) : nat :=
  match l with [] => 0 | x :: l' => if Rlt_dec x v then S (lower_bound l' v) else 0 end.

(** ** Arrays: a shape and the entry at each multi-index *)
Record arr : Type := mkArr { shape : list nat; at_ : list nat -> ereal }.
Record iarr : Type := mkIarr { ishape : list nat; iat : list nat -> nat }.

Fixpoint shape_eqb (a b : list nat) : bool :=
  match a, b with
  | [], [] => true
  | x :: a', y :: b' => (x =? y) && shape_eqb a' b'
  | _, _ => false
  end.
(** the multi-indices of an array of this shape *)
Fixpoint indices (sh : list nat) : list (list nat) :=
  match sh with
  | [] => [[]]
  | n :: sh' => flat_map (fun i => map (cons i) (indices sh')) (seq 0 n)
  end.
(** the fiber along dimension 0 at the remaining indices [r] *)
Definition fiber0 (a : arr) (r : list nat) : list ereal :=
  map (fun k => at_ a (k :: r)) (seq 0 (nth 0 (shape a) 0)).
(** a dimension given as a (possibly negative) Python int *)
Definition norm_dim (rank : nat) (d : Z) : option nat :=
  if (0 <=? d)%Z && (d <? Z.of_nat rank)%Z then Some (Z.to_nat d)
  else if (d <? 0)%Z && (0 <=? d + Z.of_nat rank)%Z then Some (Z.to_nat (d + Z.of_nat rank))
  else None.
(** Tensor.unsqueeze(1) of a vector, Tensor.squeeze(1) of an (n, 1) index array *)
Definition unsqueeze1 (a : arr) : arr := mkArr (shape a ++ [1]) (fun idx => at_ a (firstn 1 idx)).
Definition squeeze1 (a : iarr) : iarr := mkIarr (firstn 1 (ishape a)) (fun idx => iat a (idx ++ [0])).
