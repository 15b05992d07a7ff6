(** Model of the keyword-argument plumbing of /repo/combinators/program.py:115-154. *)
From Verif Require Export Lib.

(** inspect.getfullargspec(fn): positional parameter names ([self] included for bound
    methods), keyword-only names, and whether there is a ** parameter. *)
Record sig : Type := mkSig { s_args : list string; s_kwonly : list string; s_varkw : bool }.

(** check_passable_kwarg, /repo/combinators/program.py:115-122 *)
Definition check_passable_kwarg (name : string) (fn : sig) : bool :=
  s_varkw fn || mem name (s_kwonly fn) || mem name (s_args fn).

(** The three signatures [dispatch] may inspect: the callable itself, [fn.forward] when it
    is an nn.Module, [fn.model] when it is a Program. *)
Record callee : Type := mkCallee { c_self : sig; c_forward : option sig; c_model : option sig }.

Section Dispatch.
  Context {V : Type}.

  (** kwargs_for, /repo/combinators/program.py:128-136 *)
  Definition kwargs_for (f : sig) (nxt prev : dict V) : dict V :=
    filter (fun kv => check_passable_kwarg (fst kv) f && negb (dmem (fst kv) prev)) nxt.

  (** the keyword arguments dispatch forwards, /repo/combinators/program.py:138-154 *)
  Definition dispatch_kwargs (fn : callee) (kwargs : dict V) : dict V :=
    let k0 := kwargs_for (c_self fn) kwargs [] in
    let k1 := match c_forward fn with
              | Some f => dmerge (kwargs_for f kwargs k0) k0
              | None => k0
              end in
    match c_model fn with
    | Some f => dmerge (kwargs_for f kwargs k1) k1
    | None => k1
    end.
End Dispatch.
