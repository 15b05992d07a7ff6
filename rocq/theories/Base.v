(** Python run-time vocabulary shared by all models: exceptions as values,
    insertion-ordered dictionaries, finite sets of strings.

    Nothing here models a function of /repo; it is the reading of the Python
    language that the other files use.
    - [res A]   : a computation that returned a value or raised;
    - [dict V]  : a Python dict with string keys (insertion ordered, an update of an
                  existing key keeps its position);
    - sets of strings are lists, only ever used through membership. *)
From Coq Require Export String Bool Arith ZArith Lia Permutation List.
Export ListNotations.
Global Open Scope string_scope.
Global Open Scope list_scope.

(** Exception classes that the modelled code can raise. [UserExn] stands for any
    exception raised by user code (a model, a loss function, a hook). *)
Inductive exn : Type :=
| AssertionError | RuntimeError | TypeError | ValueError | KeyError | IndexError
| AttributeError | NameError | NotImplementedError | PlainException | ZeroDivisionError | FileNotFoundError
| UserExn (n : nat).

Inductive res (A : Type) : Type :=
| Ok (a : A)
| Err (e : exn).
Arguments Ok {A} a.
Arguments Err {A} e.

Definition rbind {A B} (r : res A) (f : A -> res B) : res B :=
  match r with Ok a => f a | Err e => Err e end.
Definition rmap {A B} (f : A -> B) (r : res A) : res B :=
  match r with Ok a => Ok (f a) | Err e => Err e end.

(** ** Membership in lists of strings (Python [in] on keys / sets) *)
Definition mem (k : string) (l : list string) : bool := existsb (String.eqb k) l.
(** Python set difference [a - b] and intersection, keeping the order of [a]. *)
Definition sdiff (a b : list string) : list string := filter (fun k => negb (mem k b)) a.
Definition sinter (a b : list string) : list string := filter (fun k => mem k b) a.
Definition sunion (a b : list string) : list string := a ++ sdiff b a.

(** ** Dictionaries *)
Section Dict.
  Context {V : Type}.
  Definition dict := list (string * V).

  Fixpoint dget (k : string) (d : dict) : option V :=
    match d with
    | [] => None
    | (k', v) :: d' => if String.eqb k k' then Some v else dget k d'
    end.
  Definition dmem (k : string) (d : dict) : bool :=
    match dget k d with Some _ => true | None => false end.
  Fixpoint dset (k : string) (v : V) (d : dict) : dict :=
    match d with
    | [] => [(k, v)]
    | (k', v') :: d' => if String.eqb k k' then (k', v) :: d' else (k', v') :: dset k v d'
    end.
  Fixpoint ddel (k : string) (d : dict) : dict :=
    match d with
    | [] => []
    | (k', v') :: d' => if String.eqb k k' then d' else (k', v') :: ddel k d'
    end.
  Definition dkeys (d : dict) : list string := map fst d.
  (** [{**a, **b}] *)
  Definition dmerge (a b : dict) : dict := fold_left (fun acc kv => dset (fst kv) (snd kv) acc) b a.
End Dict.
Arguments dict V : clear implicits.

(** The representation invariant of Python dicts: no key occurs twice. *)
Definition wf_dict {V} (d : dict V) : Prop := NoDup (dkeys d).
