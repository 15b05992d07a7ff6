(** Specification for property C64: what is assumed of the floating-point exponential and sum. *)
From Verif Require Export Floats.
Open Scope R_scope.

(** an exponential function for numbers up to 0 with a relative error of 2^-22 (two units in the
    last place), which may return 0 for results below 2^-126 *)
Record accurate_exp (fexp : R -> R) : Prop := mkAccurateExp {
  ae_zero : fexp 0 = 1;
  ae_range : forall x, x <= 0 -> 0 <= fexp x <= 1;
  ae_close : forall x, x <= 0 -> Rabs (fexp x - exp x) <= exp x / 2 ^ 22 + / 2 ^ 126 }.
(** a sum that adds in some order, rounding every time *)
Definition adds_up (sum : list R -> R) : Prop := forall l, l <> [] -> summed l (sum l).
