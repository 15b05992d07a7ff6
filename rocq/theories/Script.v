(** Model of the annealing script as a whole, /repo/experiments/annealing/main.py:119-224, with
    /repo/experiments/annealing/plotting.py: what it leaves behind, in the order in which it does so.
    What was done before an exception stays done.

    Simplifications: what training, loading, the evaluation and matplotlib do is given by the record
    [world] (an exception, or success); TrainNvi.v, Runs.v and Evaluation.v model the first three.
    Creating a directory, saving a file of metrics and printing do not fail.  Seeding is not
    modelled. *)
From Verif Require Export Runs.
Open Scope nat_scope.

Inductive act : Type :=
| MakeDir (path : string) | SaveModels (name : string) | LoadModels (name : string)
| SaveMetrics (path : string) | PrintMetrics | SaveFigure (path : string) | PrintDone.

(** what the script does, and whether it ends with an exception *)
Definition writer (A : Type) : Type := (list act * res A)%type.
Definition wret {A} (a : A) : writer A := ([], Ok a).
Definition wres {A} (r : res A) : writer A := ([], r).
Definition wact (x : act) : writer unit := ([x], Ok tt).
Definition wbind {A B} (m : writer A) (f : A -> writer B) : writer B :=
  match m with
  | (l, Ok a) => let (l', r) := f a in (l ++ l', r)
  | (l, Err e) => (l, Err e)
  end.
(** [for k in range(n)], from [k] on *)
Fixpoint each (n k : nat) (f : nat -> res unit) : res unit :=
  match n with 0 => Ok tt | S n' => rbind (f k) (fun _ => each n' (S k) f) end.

(** ** plotting.py *)
(** the names a function of the module can refer to: what lines 14-15 import, what the module
    defines, and the builtins it uses *)
Definition plotting_names : list string := ["np"; "plt"; "plot_sample_hist"; "plot"; "range"; "NotImplemented"].
(** evaluating a global name *)
Definition global (name : string) : res unit := if mem name plotting_names then Ok tt else Err NameError.
(** plot_sample_hist, lines 21-33: [draw] is what the calls of matplotlib do *)
Definition plot_sample_hist (draw : res unit) : res unit :=
  rbind (global "torch") (fun _ => rbind (global "np") (fun _ => draw)).
(** plot, lines 36-63.  [K]: losses.shape[1]; [samples]: how many lists of samples there are; [lines k],
    [hist k]: what matplotlib does with column [k] in the first and in the second loop. *)
Definition plot (K samples : nat) (lines hist : nat -> res unit) (filename : option string) : writer unit :=
  wbind (wres (global "plt")) (fun _ =>
  wbind (wres (each K 0 lines)) (fun _ =>
  wbind (wres (each K 0 (fun k => if k <? samples then plot_sample_hist (hist k) else Err IndexError))) (fun _ =>
  match filename with
  | None => wret tt
  | Some f => wact (SaveFigure ("figures/" ++ f))
  end))).

(** ** The script *)
Record world : Type := mkWorld {
  w_exists : string -> bool;                  (* os.path.exists *)
  w_train : plan -> res unit;                 (* nvi_train *)
  w_load : plan -> res unit;                  (* load_nvi_model *)
  w_test : plan -> res nat;                   (* nvi_test: how many lists of samples it returns *)
  w_lines : nat -> res unit; w_hist : nat -> res unit }.
(** [if not os.path.exists(path): os.makedirs(path)] *)
Definition make_dir (w : world) (path : string) : writer unit := if w_exists w path then wret tt else wact (MakeDir path).
(** the file of lines 207-212 *)
Definition metrics_file (c : config) : string :=
  ("./metrics/" ++ run_name c ++ "-metric-tuple_S" ++ show 1000 ++ "_B" ++ show 100 ++ "-loss-ess-logZhat.pt")%string.
(** lines 175-224, once the models are made; [smoke]: the argument --smoketest *)
Definition run_plan (p : plan) (smoke : option string) (w : world) : writer unit :=
  let c := p_config p in
  let save_plots := (c_resample c && c_optimize_path c && (c_targets c =? 8))%bool in
  wbind (if p_train p
         then wbind (wres (w_train w p)) (fun _ => wact (SaveModels (run_name c)))
         else wbind (wres (w_load w p)) (fun _ => wact (LoadModels (run_name c)))) (fun _ =>
  wbind (if bool_flag false smoke then wret tt else
         wbind (wres (w_test w p)) (fun samples =>
         wbind (wact (SaveMetrics (metrics_file c))) (fun _ =>
         wbind (wact PrintMetrics) (fun _ =>
         if save_plots
         then wbind (make_dir w "./figures/") (fun _ => plot (c_targets c - 1) samples (w_lines w) (w_hist w) (Some (run_name c)))
         else wret tt)))) (fun _ =>
  wact PrintDone)).
(** lines 119-224 *)
Definition script (a : cli) (smoke : option string) (w : world) : writer unit :=
  wbind (make_dir w "./weights/") (fun _ =>
  wbind (make_dir w "./metrics/") (fun _ =>
  wbind (wres (main_plan a)) (fun p => run_plan p smoke w))).
