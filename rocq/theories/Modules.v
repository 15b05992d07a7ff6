(** Model of the parameters of the networks of both experiments, and of what the optimizer and the
    checkpoints get of them.  A parameter is the identity of an nn.Parameter; its numbers do not
    matter here.  Plain tensors, functions and lists that a module holds are not parameters, and
    torch does not look into them. *)
From Verif Require Import Base Utils.
Open Scope nat_scope.

(** an nn.Module: its own parameters and its sub-modules, under their names, in the order in which
    they were assigned *)
Inductive module : Type := Module (own : list (string * nat)) (subs : list (string * module)).
(** Module.named_parameters before it drops repetitions; also the keys and values of
    Module.state_dict, which does not drop them *)
Fixpoint named (pre : string) (m : module) : list (string * nat) :=
  match m with
  | Module own subs =>
      map (fun kv => ((pre ++ fst kv)%string, snd kv)) own
      ++ (fix go l := match l with [] => [] | (k, m') :: l' => named (pre ++ k ++ ".") m' ++ go l' end) subs
  end.
Definition state_dict (m : module) : list (string * nat) := named "" m.
(** the first occurrences *)
Fixpoint firsts (seen l : list nat) : list nat :=
  match l with
  | [] => []
  | x :: l' => if existsb (Nat.eqb x) seen then firsts seen l' else x :: firsts (x :: seen) l'
  end.
(** Module.parameters *)
Definition parameters (m : module) : list nat := firsts [] (map snd (state_dict m)).

(** adam, /repo/combinators/utils.py:65-68: one group for each module.  torch's Optimizer refuses an
    empty list of groups, and a group that has a parameter in common with an earlier one. *)
Fixpoint add_groups (seen : list nat) (gs : list (list nat)) : res (list (list nat)) :=
  match gs with
  | [] => Ok []
  | g :: gs' => if existsb (fun x => existsb (Nat.eqb x) seen) g then Err ValueError
                else rmap (cons g) (add_groups (g ++ seen) gs')
  end.
Definition adam (models : list module) : res (list (list nat)) :=
  match map parameters models with [] => Err ValueError | gs => add_groups [] gs end.

(** ** Construction.  [fresh]: the next parameter. *)
Definition mk (A : Type) : Type := nat -> A * nat.
Definition mret {A} (a : A) : mk A := fun n => (a, n).
Definition mbind {A B} (x : mk A) (f : A -> mk B) : mk B := fun n => let (a, n') := x n in f a n'.
Definition parameter : mk nat := fun n => (n, S n).
Fixpoint mmap {A B} (f : A -> mk B) (l : list A) : mk (list B) :=
  match l with [] => mret [] | a :: l' => mbind (f a) (fun b => mbind (mmap f l') (fun bs => mret (b :: bs))) end.

(** nn.Linear; a layer without parameters *)
Definition linear : mk module := mbind parameter (fun w => mbind parameter (fun b => mret (Module [("weight", w); ("bias", b)] []))).
Definition pure_layer : mk module := mret (Module [] []).
Definition layer (l : bool) : mk module := if l then linear else pure_layer.
(** nn.Sequential: the layers are named 0, 1, ...; [true]: Linear, [false]: ReLU, Tanh or Sigmoid *)
Definition sequential (ls : list bool) : mk module :=
  mbind (mmap layer ls) (fun ms => mret (Module [] (combine (map show (seq 0 (length ms))) ms))).

(** *** experiments/annealing *)
(** ResMLPJ, /repo/experiments/annealing/models.py:42-47.  initialize_ writes into its parameters. *)
Definition res_mlp : mk module :=
  mbind (sequential [true; false]) (fun j => mbind (sequential [true]) (fun mu => mbind (sequential [true]) (fun cov =>
  mret (Module [] [("map_joint", j); ("map_mu", mu); ("map_cov", cov)])))).
(** ConditionalMultivariateNormal, /repo/experiments/annealing/models.py:124-144: [cov_emb] is a plain
    tensor *)
Definition kernel : mk module := mbind res_mlp (fun net => mret (Module [] [("net", net)])).
(** FixedMultivariateNormal and RingGMM, /repo/experiments/annealing/models.py:115-121,204-212,243-250:
    their tensors and distributions are plain attributes *)
Definition fixed_normal : mk module := mret (Module [] []).
Definition ring_gmm : mk module := mret (Module [] []).
(** Tempered, /repo/experiments/annealing/models.py:165-184 *)
Definition tempered (optimize : bool) (d1 d2 : module) : mk module :=
  if optimize then mbind parameter (fun l => mret (Module [("logit", l)] [("density1", d1); ("density2", d2)]))
  else mret (Module [] [("density1", d1); ("density2", d2)]).
(** anneal_between, /repo/experiments/annealing/models.py:253-262, for at least two targets; the same
    [left] and [right] are part of every intermediate target *)
Definition anneal_between (left right : module) (K : nat) (optimize : bool) : mk (list module) :=
  mbind (mmap (fun _ => tempered optimize left right) (seq 1 (K - 2))) (fun path => mret (left :: path ++ [right])).
(** paper_model, mk_model, /repo/experiments/annealing/models.py:33-39,265-295; moving a module to a
    device keeps its parameters *)
Definition paper_model (K : nat) (optimize : bool) : mk (list module * list module * list module) :=
  mbind fixed_normal (fun g0 => mbind ring_gmm (fun gK =>
  mbind (anneal_between g0 gK K optimize) (fun targets =>
  mbind (mmap (fun _ => kernel) (seq 0 (K - 1))) (fun forwards =>
  mbind (mmap (fun _ => kernel) (seq 0 (K - 1))) (fun reverses =>
  mret (targets, forwards, reverses)))))).
(** the optimizer of nvi_train, /repo/experiments/annealing/main.py:53 *)
Definition nvi_optimizer (m : list module * list module * list module) : res (list (list nat)) :=
  let '(targets, forwards, reverses) := m in adam (targets ++ forwards ++ reverses).

(** *** experiments/apgs *)
(** _Decoder, /repo/experiments/apgs/models.py:255-284: the priors are plain tensors *)
Definition decoder : mk module :=
  mbind (sequential [true; false; true; false; true; false]) (fun d => mret (Module [] [("dec_digit_mean", d)])).
(** Enc_coor, /repo/experiments/apgs/models.py:77-113: the decoder is reached through a function
    (get_dec), and therefore not a sub-module *)
Definition enc_coor (dec : module) : mk module :=
  mbind (sequential [true; false]) (fun h => mbind (sequential [true; false; true; false]) (fun me =>
  mbind (sequential [true; false; true]) (fun sd =>
  mret (Module [] [("enc_coor_hidden", h); ("where_mean", me); ("where_log_std", sd)])))).
(** Enc_digit, /repo/experiments/apgs/models.py:203-223 *)
Definition enc_digit : mk module :=
  mbind (sequential [true; false; true; false]) (fun h => mbind (sequential [true]) (fun me => mbind (sequential [true]) (fun sd =>
  mret (Module [] [("enc_digit_hidden", h); ("enc_digit_mean", me); ("enc_digit_log_std", sd)])))).
(** init_models, /repo/experiments/apgs/models.py:28-74 *)
Definition init_models : mk (dict module) :=
  mbind decoder (fun d => mbind (enc_coor d) (fun ec => mbind enc_digit (fun ed =>
  mret [("dec", d); ("enc_coor", ec); ("enc_digit", ed)]))).
(** the optimizer of train_apg, /repo/experiments/apgs/main.py:55 *)
Definition apg_optimizer (models : dict module) : res (list (list nat)) := adam (map snd models).
