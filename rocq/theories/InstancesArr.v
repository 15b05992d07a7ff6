(** An instance of the torch boundary whose tensors are arrays of extended reals, used by the
    non-vacuity examples of the resampling properties. *)
From Coq Require Import Lra.
From Verif Require Export SpecResample Instances.

Definition eadd (x y : ereal) : ereal :=
  match x, y with Fin a, Fin b => Fin (a + b)%R | _, _ => NInf end.
Definition esub (x y : ereal) : ereal :=
  match x, y with Fin a, Fin b => Fin (a - b)%R | _, _ => NInf end.
(** scalar-tensor broadcasting *)
Definition arr2 (f : ereal -> ereal -> ereal) (a b : arr) : arr :=
  match shape a, shape b with
  | [], _ => mkArr (shape b) (fun idx => f (at_ a []) (at_ b idx))
  | _, [] => mkArr (shape a) (fun idx => f (at_ a idx) (at_ b []))
  | _, _ => mkArr (shape a) (fun idx => f (at_ a idx) (at_ b idx))
  end.
Definition TenL : lib := {|
  T := arr; D := unit;
  tzero := mkArr [] (fun _ => Fin 0%R);
  tadd := arr2 eadd; tsub := arr2 esub;
  detach := fun a => a; is_tensor := fun _ => true; to_tensor := fun a => a;
  eq_zero := fun a => Ok (match shape a with [] => match at_ a [] with Fin r => if Req_EM_T r 0 then true else false | NInf => false end | _ => false end);
  tensor_equal := fun _ _ => true;
  bsum := fun _ _ a => a;
  logp := fun _ a => a;
  lj_ok := fun _ _ _ => true;
  order := fun l => l
|}.
Definition TenV : array_view TenL := mkView TenL (fun a => a) (fun a => a) (fun _ => eq_refl) (fun _ => eq_refl).

(** a vector and a matrix *)
Definition vec (l : list R) : arr := mkArr [length l] (fun idx => Fin (nth (nth 0 idx 0) l 0%R)).
Definition mat (n b : nat) (f : nat -> nat -> R) : arr := mkArr [n; b] (fun idx => Fin (f (nth 0 idx 0) (nth 1 idx 0))).

(** x ~ tt; observe y = w under tt; return {x: x, other: None} *)
Definition wx_model (w : arr) : pyval arr -> dict (pyval arr) -> model TenL := fun _ _ =>
  MVar (L := TenL) "x" tt None true (fun x =>
  MVar (L := TenL) "y" tt (Some (w, None)) true (fun _ =>
  MRet (L := TenL) (VDict [("x", VTensor x); ("other", VNone)]))).
Definition P_w (w : arr) : inf TenL := IProg (L := TenL) 1 sig_model (wx_model w).
