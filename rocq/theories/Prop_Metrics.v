(** Properties C34, C35: effective sample size and evidence estimate. *)
From Coq Require Import Lra.
From Verif Require Import Thm_Resample.
Open Scope R_scope.

(** ** C34 Effective sample size bounds *)
Theorem C34_ess : forall lw, alive lw ->
  effective_sample_size lw = rsum (map eexp lw) * rsum (map eexp lw) / rsum (map (fun x => eexp x * eexp x) lw).
Proof. exact ess_spec. Qed.
Print Assumptions C34_ess.
Theorem C34_bounds : forall lw, alive lw -> 1 <= effective_sample_size lw <= INR (length lw).
Proof. exact ess_bounds. Qed.
Print Assumptions C34_bounds.
Theorem C34_maximal : forall lw, alive lw ->
  (effective_sample_size lw = INR (length lw) <-> forall x y, In x lw -> In y lw -> x = y).
Proof. exact ess_max. Qed.
Print Assumptions C34_maximal.
Theorem C34_shift : forall lw c, alive lw -> effective_sample_size (map (eshift c) lw) = effective_sample_size lw.
Proof. exact ess_shift. Qed.
Print Assumptions C34_shift.
Example C34_case : alive [Fin 0; NInf; Fin 1].
Proof. exists 0. left. reflexivity. Qed.

(** ** C35 Evidence estimate *)
Theorem C35_log_mean : forall l, l <> [] -> log_Z_hat (reals l) = Fin (ln (rsum (map exp l) / INR (length l))).
Proof. exact log_Z_hat_spec. Qed.
Print Assumptions C35_log_mean.
Theorem C35_bounds : forall l a b z, l <> [] -> (forall x, In x l -> a <= x <= b) ->
  log_Z_hat (reals l) = Fin z -> a <= z <= b.
Proof. exact log_Z_hat_bounds. Qed.
Print Assumptions C35_bounds.
Theorem C35_shift : forall l c, l <> [] ->
  log_Z_hat (reals (map (fun x => x + c) l)) = eshift c (log_Z_hat (reals l)).
Proof. exact log_Z_hat_shift. Qed.
Print Assumptions C35_shift.
Example C35_case : [0; 1; 5] <> [] /\ (forall x, In x [0; 1; 5] -> 0 <= x <= 5).
Proof. split; [discriminate|]. cbn. intros x H. intuition lra. Qed.
