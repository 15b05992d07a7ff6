(** Model of viz_samples, /repo/experiments/apgs/plotting.py:18-74: which images and which rectangles
    are shown where, and what is saved.

    Simplifications: a figure is the list of its columns; sizes, ticks, fonts and colour maps are
    not modelled.  The value of matplotlib is what the calls say: [imshow] shows the pixel of row i and
    column j around the point (j, i), a rectangle is given by its corner (x, y), its width and its
    height, and [plt.savefig] saves the figure made last.  Arithmetic is exact. *)
From Verif Require Export Affine.
Open Scope R_scope.

Record rect : Type := mkRect { r_x : R; r_y : R; r_width : nat; r_height : nat; r_color : string }.
(** one column of a figure: the frame with its rectangles above, the reconstruction below *)
Record column : Type := mkColumn { above : image; rects : list rect; below : image }.
Definition figure := list column.

(** the default colors, lines 28-36 *)
Definition colors : list string := ["#AA3377"; "#EE7733"; "#009988"; "#0077BB"; "#BBBBBB"; "#EE3377"; "#DDCC77"]%string.
(** [for i in range(n)], from [i] on, collecting what is added *)
Fixpoint collect {A} (n i : nat) (f : nat -> res A) : res (list A) :=
  match n with
  | O => Ok []
  | S n' => rbind (f i) (fun a => rmap (cons a) (collect n' (S i) f))
  end.

Section Viz.
  (** frames: (B, T, FP, FP); rs: (S, B, T, FP, FP); ws: (S, B, T, K, 2) *)
  Context (B T FP K : nat) (frames : nat -> nat -> image) (rs : nat -> nat -> nat -> image) (ws : nat -> nat -> nat -> nat -> nat -> R)
          (num_objects object_size : nat).
  (** lines 40-42: the positions of the first particle, the second coordinate negated *)
  Definition z_wheres_last (b t k d : nat) : R := if Nat.eqb d 1 then ws 0%nat b t k d * -1 else ws 0%nat b t k d.
  (** lines 43-44 *)
  Definition c_pixels_last (b t k d : nat) : R := (z_wheres_last b t k d + 1) * (INR FP - INR object_size) / 2.
  (** lines 59-67: [c_pixel_last[c, k, :]] and [colors[k]] *)
  Definition rect_of (b c k : nat) : res rect :=
    if Nat.ltb k K
    then match nth_error colors k with
         | Some color => Ok (mkRect (c_pixels_last b c k 0) (c_pixels_last b c k 1) object_size object_size color)
         | None => Err IndexError
         end
    else Err IndexError.
  (** lines 53-72 *)
  Definition column_of (b c : nat) : res column :=
    rmap (fun l => mkColumn (frames b c) l (rs 0%nat b c)) (collect num_objects 0 (rect_of b c)).
  (** lines 45-72: the figures, in the order in which they are made *)
  Definition figures : res (list figure) := collect B 0 (fun b => collect T 0 (column_of b)).
  (** lines 18-74: the figures, and the one saved in combinators_apg_samples.svg.  Without a figure
      matplotlib makes an empty one. *)
  Definition viz_samples (save : bool) : res (list figure * option figure) :=
    rmap (fun l => (l, if save then Some (List.last l []) else None)) figures.
End Viz.
