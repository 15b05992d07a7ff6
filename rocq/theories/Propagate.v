(** Model of [propagate], /repo/combinators/utils.py:167-198: pushing a multivariate normal
    through a linear Gaussian kernel.

    Simplifications: arithmetic is exact; [.cpu()] and [torch.no_grad()] are identities here;
    only unbatched vectors and matrices are represented; the constructor of
    MultivariateNormal checks shapes but not positive definiteness (see C49_definite for
    why that check passes). *)
From Coq Require Export Reals.
From Verif Require Export Base.
Open Scope R_scope.
Open Scope nat_scope.

(** 1-D and 2-D tensors: sizes and entries *)
Record vec : Type := mkVec { vlen : nat; vat : nat -> R }.
Record mat : Type := mkMat { mrows : nat; mcols : nat; ment : nat -> nat -> R }.

(** sum of [f i] for i < n *)
Fixpoint sumn (n : nat) (f : nat -> R) : R := match n with 0 => 0%R | S m => (sumn m f + f m)%R end.

(** broadcasting of one dimension: equal sizes, or one of them is 1 *)
Definition bdim (a b : nat) : res nat :=
  if a =? b then Ok a else if a =? 1 then Ok b else if b =? 1 then Ok a else Err RuntimeError.
Definition bix (size i : nat) : nat := if size =? 1 then 0 else i.
(** + of vectors, of matrices *)
Definition vadd (u v : vec) : res vec :=
  rmap (fun n => mkVec n (fun i => (vat u (bix (vlen u) i) + vat v (bix (vlen v) i))%R)) (bdim (vlen u) (vlen v)).
Definition madd (a b : mat) : res mat :=
  rbind (bdim (mrows a) (mrows b)) (fun r => rmap (fun c =>
    mkMat r c (fun i j => (ment a (bix (mrows a) i) (bix (mcols a) j) + ment b (bix (mrows b) i) (bix (mcols b) j))%R))
    (bdim (mcols a) (mcols b))).
(** F @ a and F @ A *)
Definition matvec (f : mat) (a : vec) : res vec :=
  if mcols f =? vlen a then Ok (mkVec (mrows f) (fun i => sumn (vlen a) (fun j => (ment f i j * vat a j)%R))) else Err RuntimeError.
Definition matmul (f a : mat) : res mat :=
  if mcols f =? mrows a
  then Ok (mkMat (mrows f) (mcols a) (fun i j => sumn (mrows a) (fun l => (ment f i l * ment a l j)%R)))
  else Err RuntimeError.
(** A.T *)
Definition transpose (a : mat) : mat := mkMat (mcols a) (mrows a) (fun i j => ment a j i).
(** torch.cat of two vectors; of two matrices along dim=1 and dim=0 *)
Definition vcat (u v : vec) : vec :=
  mkVec (vlen u + vlen v) (fun i => if i <? vlen u then vat u i else vat v (i - vlen u)).
Definition cat1 (a b : mat) : res mat :=
  if mrows a =? mrows b
  then Ok (mkMat (mrows a) (mcols a + mcols b) (fun i j => if j <? mcols a then ment a i j else ment b i (j - mcols a)))
  else Err RuntimeError.
Definition cat0 (a b : mat) : res mat :=
  if mcols a =? mcols b
  then Ok (mkMat (mrows a + mrows b) (mcols a) (fun i j => if i <? mrows a then ment a i j else ment b (i - mrows a) j))
  else Err RuntimeError.

(** D.MultivariateNormal(loc=., covariance_matrix=.) *)
Record mvn : Type := mkMVN { loc : vec; cov : mat }.
Definition mk_mvn (l : vec) (c : mat) : res mvn :=
  if (mrows c =? vlen l) && (mcols c =? vlen l) then Ok (mkMVN l c) else Err ValueError.

(** propagate(N, F, t, B, marginalize, reverse_order), utils.py:167-198 *)
Definition propagate (N : mvn) (F : mat) (t : vec) (B : mat) (marginalize reverse_order : bool) : res mvn :=
  let a := loc N in                                                          (* :180 *)
  let A := cov N in                                                          (* :181 *)
  rbind (matvec F a) (fun Fa => rbind (vadd t Fa) (fun b =>                  (* :182 *)
  let m := vcat a b in                                                       (* :183 *)
  rbind (matmul F A) (fun FA =>                                              (* :184 *)
  rbind (matmul F (transpose FA)) (fun FFA => rbind (madd B FFA) (fun BFFA => (* :185 *)
  if marginalize then mk_mvn b BFFA                                          (* :186-187 *)
  else if reverse_order then
    rbind (cat1 BFFA FA) (fun C1 =>                                          (* :194 *)
    rbind (cat1 (transpose FA) A) (fun C2 =>                                 (* :195 *)
    rbind (cat0 C1 C2) (fun C => mk_mvn (vcat b a) C)))                      (* :196-198 *)
  else
    rbind (cat1 A (transpose FA)) (fun C1 =>                                 (* :190 *)
    rbind (cat1 FA BFFA) (fun C2 =>                                          (* :191 *)
    rbind (cat0 C1 C2) (fun C => mk_mvn m C)))))))).                         (* :192, :198 *)
