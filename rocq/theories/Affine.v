(** Model of /repo/experiments/apgs/affine_transformer.py: placing a digit in a frame and cutting
    a patch out of a frame.

    torch's affine_grid and grid_sample (mode "nearest", padding "zeros", align_corners=True) are
    modelled from their documentation.  Simplifications: arithmetic is exact; images are functions of
    (row, column); tensors with axes (S, B, T, K) are functions of their indices, and [view] of
    such a tensor as one of S*B*T*K rows is the row-major numbering. *)
From Coq Require Export Reals.
From Verif Require Export Base.
Open Scope R_scope.

Definition image := nat -> nat -> R.            (* row, column *)

(** ** torch.nn.functional *)
(** the coordinates of [n] pixels: evenly spaced from -1 to 1 *)
Definition coord (n i : nat) : R := if Nat.leb n 1 then 0 else -1 + 2 * INR i / INR (n - 1).
(** nearbyint: the nearest integer, ties to even *)
Definition rint (x : R) : Z :=
  let k := Int_part x in
  if Rlt_dec (x - IZR k) (/ 2) then k
  else if Rlt_dec (/ 2) (x - IZR k) then (k + 1)%Z
  else if Z.even k then k else (k + 1)%Z.
(** the pixel of a coordinate *)
Definition nearest (n : nat) (g : R) : Z := rint ((g + 1) / 2 * INR (n - 1)).
Definition in_range (n : nat) (z : Z) : bool := ((0 <=? z) && (z <? Z.of_nat n))%Z.
(** an affine map of the plane: the 2 x 3 matrix theta *)
Definition theta := nat -> nat -> R.
(** affine_grid(theta, (_, 1, n, n)): the (x, y) read by output pixel (i, j) *)
Definition grid_x (th : theta) (n i j : nat) : R := th 0%nat 0%nat * coord n j + th 0%nat 1%nat * coord n i + th 0%nat 2%nat.
Definition grid_y (th : theta) (n i j : nat) : R := th 1%nat 0%nat * coord n j + th 1%nat 1%nat * coord n i + th 1%nat 2%nat.
(** grid_sample(img, grid) for an image of [m] x [m] pixels *)
Definition grid_sample (img : image) (m : nat) (x y : R) : R :=
  let ix := nearest m x in
  let iy := nearest m y in
  if in_range m ix && in_range m iy then img (Z.to_nat iy) (Z.to_nat ix) else 0.

(** [.view(S * B * T * K, ...)] and back: row-major numbering of the indices *)
Definition flat (B T K s b t k : nat) : nat := (((s * B + b) * T + t) * K + k)%nat.
Definition of_flat {A} (B T K : nat) (f : nat -> nat -> nat -> nat -> A) (n : nat) : A :=
  f (n / K / T / B)%nat (n / K / T mod B)%nat (n / K mod T)%nat (n mod K)%nat.

(** [torch.cat((affine_p1, affine_p2), -1)]: a scaling and a translation *)
Definition mk_theta (scale tx ty : R) : theta := fun i j =>
  match i, j with
  | 0%nat, 0%nat => scale | 0%nat, 1%nat => 0 | 0%nat, _ => tx
  | _, 0%nat => 0 | _, 1%nat => scale | _, _ => ty
  end.

Section Transformer.
  (** Affine_Transformer(frame_pixels, digit_pixels, device), lines 40-69 *)
  Context (frame_pixels digit_pixels : nat).
  Notation FP := (INR frame_pixels).
  Notation DP := (INR digit_pixels).
  Definition translation_dtof : R := (FP - DP) / DP.                          (* :48-50 *)
  Definition translation_ftod : R := (FP - DP) / FP.                          (* :51-53 *)
  Definition scale_dtof : R := FP / DP.                                       (* :54-61 *)
  Definition scale_ftod : R := DP / FP.                                       (* :62-69 *)

  (** digit_to_frame, lines 71-98.  digit: (S, B, K); z_where: (S, B, T, K, 2); result: (S, B, T, K). *)
  Definition digit_to_frame (B T K : nat) (digit : nat -> nat -> nat -> image) (z_where : nat -> nat -> nat -> nat -> nat -> R)
    : nat -> nat -> nat -> nat -> image :=
    let affine s b t k :=                                                     (* :77-83 *)
      mk_theta scale_dtof (-1 * (z_where s b t k 0%nat * translation_dtof)) (z_where s b t k 1%nat * translation_dtof) in
    let grids := of_flat B T K affine in                                      (* :84-88 *)
    let digits := of_flat B T K (fun s b _ k => digit s b k) in               (* :90-93 *)
    let frames n i j := grid_sample (digits n) digit_pixels (grid_x (grids n) frame_pixels i j) (grid_y (grids n) frame_pixels i j) in
    fun s b t k => frames (flat B T K s b t k).                               (* :98 *)

  (** frame_to_digit, lines 100-127.  frames: (S, B, T); z_where: (S, B, T, K, 2); result: (S, B, T, K). *)
  Definition frame_to_digit (B T K : nat) (frames : nat -> nat -> nat -> image) (z_where : nat -> nat -> nat -> nat -> nat -> R)
    : nat -> nat -> nat -> nat -> image :=
    let affine s b t k :=                                                     (* :106-112 *)
      mk_theta scale_ftod (z_where s b t k 0%nat * translation_ftod) (-1 * (z_where s b t k 1%nat * translation_ftod)) in
    let grids := of_flat B T K affine in                                      (* :113-117 *)
    let inputs := of_flat B T K (fun s b t _ => frames s b t) in              (* :119-122 *)
    let digit n i j := grid_sample (inputs n) frame_pixels (grid_x (grids n) digit_pixels i j) (grid_y (grids n) digit_pixels i j) in
    fun s b t k => digit (flat B T K s b t k).                                (* :127 *)
End Transformer.
