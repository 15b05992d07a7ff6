(** Model of /repo/combinators/out.py: PropertyDict, GlobalStore, Out.
    Not modelled: show_nest and the __repr__ methods. *)
From Verif Require Export Base.

(** ** PropertyDict, /repo/combinators/out.py:20-37 *)

(** The attributes that Python finds on the class (dict, object and PropertyDict itself) before
    it tries __getattr__. *)
Definition class_attrs : list string :=
  ["clear"; "copy"; "fromkeys"; "get"; "items"; "keys"; "pop"; "popitem"; "setdefault"; "update"; "values";
   "__class__"; "__class_getitem__"; "__contains__"; "__delattr__"; "__delitem__"; "__dict__"; "__dir__"; "__doc__";
   "__eq__"; "__format__"; "__ge__"; "__getattr__"; "__getattribute__"; "__getitem__"; "__getstate__"; "__gt__";
   "__hash__"; "__init__"; "__init_subclass__"; "__ior__"; "__iter__"; "__le__"; "__len__"; "__lt__"; "__module__";
   "__ne__"; "__new__"; "__or__"; "__reduce__"; "__reduce_ex__"; "__repr__"; "__reversed__"; "__ror__";
   "__setattr__"; "__setitem__"; "__sizeof__"; "__str__"; "__subclasshook__"; "__weakref__"].

Section PropertyDict.
  Context {V : Type}.

  (** what an attribute read gives: an item, or the attribute of the class *)
  Inductive attr_value : Type := Item (v : V) | ClassAttr (name : string).

  (** p.name: the class attribute if there is one, else __getattr__ (lines 23-27).  The instance
      __dict__ is always empty, since __setattr__ writes items. *)
  Definition getattr (name : string) (d : dict V) : res attr_value :=
    if mem name class_attrs then Ok (ClassAttr name) else
    match dget name d with Some v => Ok (Item v) | None => Err AttributeError end.
  Definition hasattr (name : string) (d : dict V) : bool :=
    match getattr name d with Ok _ => true | Err _ => false end.
  (** p.name = value: __setattr__, lines 29-30 *)
  Definition setattr (name : string) (v : V) (d : dict V) : dict V := dset name v d.
  (** del p.name: __delattr__, lines 32-36 *)
  Definition delattr (name : string) (d : dict V) : res (dict V) :=
    if dmem name d then Ok (ddel name d) else Err AttributeError.
  (** the inherited item operations *)
  Definition getitem (name : string) (d : dict V) : res V :=
    match dget name d with Some v => Ok v | None => Err KeyError end.
  Definition delitem (name : string) (d : dict V) : res (dict V) :=
    if dmem name d then Ok (ddel name d) else Err KeyError.

  Inductive pd_op : Type :=
  | GetAttr (name : string) | SetAttr (name : string) (v : V) | DelAttr (name : string)
  | GetItem (name : string) | SetItem (name : string) (v : V) | DelItem (name : string).
  (** the result of an operation: a value read, nothing, or an exception *)
  Definition pd_step (o : pd_op) (d : dict V) : dict V * res (option attr_value) :=
    match o with
    | GetAttr n => (d, rmap Some (getattr n d))
    | SetAttr n v => (setattr n v d, Ok None)
    | DelAttr n => match delattr n d with Ok d' => (d', Ok None) | Err e => (d, Err e) end
    | GetItem n => (d, rmap (fun v => Some (Item v)) (getitem n d))
    | SetItem n v => (dset n v d, Ok None)
    | DelItem n => match delitem n d with Ok d' => (d', Ok None) | Err e => (d, Err e) end
    end.
  Fixpoint pd_run (ops : list pd_op) (d : dict V) : dict V * list (res (option attr_value)) :=
    match ops with
    | [] => (d, [])
    | o :: ops' => let '(d1, r) := pd_step o d in let '(d2, rs) := pd_run ops' d1 in (d2, r :: rs)
    end.
End PropertyDict.
Arguments attr_value V : clear implicits. Arguments pd_op V : clear implicits.

(** ** Out, /repo/combinators/out.py:137-167 *)
Section OutObj.
  Context {V : Type}.

  (** Out.__init__, lines 146-157 *)
  Definition make_out (trace log_weight output : V) (extras : dict V) : dict V :=
    fold_left (fun d kv => dset (fst kv) (snd kv) d) extras
      (setattr "output" output (setattr "log_weight" log_weight (setattr "trace" trace []))).

  Definition optionals : list string := ["ix"; "program"; "kernel"; "proposal"].
  (** the dict collected by __iter__, lines 159-164 *)
  Fixpoint collect (names : list string) (d : dict V) (acc : dict (attr_value V)) : res (dict (attr_value V)) :=
    match names with
    | [] => Ok acc
    | o :: names' => if hasattr o d
                     then rbind (getattr o d) (fun v => collect names' d (dset o v acc))
                     else collect names' d acc
    end.
  (** Out.__iter__, lines 159-167: the four things yielded *)
  Definition iter_out (d : dict V) : res (attr_value V * attr_value V * attr_value V * dict (attr_value V)) :=
    rbind (collect optionals d []) (fun extras =>
    rbind (getattr "trace" d) (fun t =>
    rbind (getattr "log_weight" d) (fun w =>
    rbind (getattr "output" d) (fun o => Ok (t, w, o, extras))))).
End OutObj.

(** ** GlobalStore, /repo/combinators/out.py:88-128 *)
Section GlobalStore.
  Context {V TR : Type}.   (* values; traces *)

  (** A hook is Python code: given the store's items and its arguments it may change the items
      (through methods of dict that bypass the hooks; recursive item access from within a hook
      is not modelled), and it raises or returns a value or None. *)
  Definition hook_result : Type := dict V * res (option V).
  Record hooks : Type := mkHooks {
    h_pre_get : dict V -> string -> hook_result;
    h_post_get : dict V -> string -> V -> hook_result;
    h_pre_set : dict V -> string -> V -> hook_result;
    h_post_set : dict V -> string -> V -> hook_result;
    h_resample_update : dict V -> TR -> TR -> hook_result }.

  (** ghost: the hook calls made so far, each with the items the store had at the call *)
  Inductive event : Type :=
  | EvPreGet (k : string) (at_items : dict V)
  | EvPostGet (k : string) (v : V) (at_items : dict V)
  | EvPreSet (k : string) (v : V) (at_items : dict V)
  | EvPostSet (k : string) (v : V) (at_items : dict V)
  | EvResample (tr tr2 : TR) (at_items : dict V).

  Record gstore : Type := mkStore { items : dict V; hks : hooks; log : list event }.

  (** GlobalStore.__init__, lines 95-108 *)
  Definition noop_hooks : hooks :=
    mkHooks (fun d _ => (d, Ok None)) (fun d _ _ => (d, Ok None)) (fun d _ _ => (d, Ok None))
            (fun d _ _ => (d, Ok None)) (fun d _ _ => (d, Ok None)).
  Definition new_store : gstore := mkStore [] noop_hooks [].

  Definition after_hook (s : gstore) (e : event) (r : hook_result) : gstore :=
    mkStore (fst r) (hks s) (log s ++ [e]).

  (** __getitem__, lines 110-114 *)
  Definition gs_get (k : string) (s : gstore) : gstore * res V :=
    let r0 := h_pre_get (hks s) (items s) k in
    let s1 := after_hook s (EvPreGet k (items s)) r0 in
    match snd r0 with
    | Err e => (s1, Err e)
    | Ok _ =>
        match dget k (items s1) with
        | None => (s1, Err KeyError)
        | Some v =>
            let r1 := h_post_get (hks s) (items s1) k v in
            let s2 := after_hook s1 (EvPostGet k v (items s1)) r1 in
            match snd r1 with
            | Err e => (s2, Err e)
            | Ok None => (s2, Ok v)
            | Ok (Some o) => (s2, Ok o)
            end
        end
    end.

  (** __setitem__, lines 121-125 *)
  Definition gs_set (k : string) (v : V) (s : gstore) : gstore * res unit :=
    let r0 := h_pre_set (hks s) (items s) k v in
    let s1 := after_hook s (EvPreSet k v (items s)) r0 in
    match snd r0 with
    | Err e => (s1, Err e)
    | Ok _ =>
        let s2 := mkStore (dset k v (items s1)) (hks s1) (log s1) in
        let r1 := h_post_set (hks s) (items s2) k v in
        let s3 := after_hook s2 (EvPostSet k v (items s2)) r1 in
        match snd r1 with Err e => (s3, Err e) | Ok _ => (s3, Ok tt) end
    end.

  (** resample_update, lines 127-129 *)
  Definition gs_resample_update (tr tr2 : TR) (s : gstore) : gstore * res unit :=
    let r := h_resample_update (hks s) (items s) tr tr2 in
    let s1 := after_hook s (EvResample tr tr2 (items s)) r in
    match snd r with Err e => (s1, Err e) | Ok _ => (s1, Ok tt) end.

  (** set_hook, lines 116-119.  A hook is given here with the arity of its kind. *)
  Inductive any_hook : Type :=
  | H2 (f : dict V -> string -> hook_result)
  | H3 (f : dict V -> string -> V -> hook_result)
  | HR (f : dict V -> TR -> TR -> hook_result).
  (** calling a hook with the wrong number or type of arguments is a TypeError *)
  Definition as2 (h : any_hook) : dict V -> string -> hook_result :=
    match h with H2 f => f | _ => fun d _ => (d, Err TypeError) end.
  Definition as3 (h : any_hook) : dict V -> string -> V -> hook_result :=
    match h with H3 f => f | _ => fun d _ _ => (d, Err TypeError) end.
  Definition asR (h : any_hook) : dict V -> TR -> TR -> hook_result :=
    match h with HR f => f | _ => fun d _ _ => (d, Err TypeError) end.
  Definition set_hook (ty : string) (f : any_hook) (s : gstore) : gstore * res unit :=
    let h := hks s in
    let upd h' := (mkStore (items s) h' (log s), Ok tt) in
    if String.eqb ty "pre_get" then upd (mkHooks (as2 f) (h_post_get h) (h_pre_set h) (h_post_set h) (h_resample_update h))
    else if String.eqb ty "post_get" then upd (mkHooks (h_pre_get h) (as3 f) (h_pre_set h) (h_post_set h) (h_resample_update h))
    else if String.eqb ty "pre_set" then upd (mkHooks (h_pre_get h) (h_post_get h) (as3 f) (h_post_set h) (h_resample_update h))
    else if String.eqb ty "post_set" then upd (mkHooks (h_pre_get h) (h_post_get h) (h_pre_set h) (as3 f) (h_resample_update h))
    else if String.eqb ty "resample_update" then upd (mkHooks (h_pre_get h) (h_post_get h) (h_pre_set h) (h_post_set h) (asR f))
    else (s, Err AssertionError).

  (** methods inherited from dict, which do not go through __getitem__/__setitem__ *)
  Definition gs_del (k : string) (s : gstore) : gstore * res unit :=
    if dmem k (items s) then (mkStore (ddel k (items s)) (hks s) (log s), Ok tt) else (s, Err KeyError).
  Definition gs_get_method (k : string) (s : gstore) : gstore * res (option V) := (s, Ok (dget k (items s))).
  Definition gs_update (d : dict V) (s : gstore) : gstore * res unit :=
    (mkStore (dmerge (items s) d) (hks s) (log s), Ok tt).

  Inductive gs_op : Type :=
  | OpGet (k : string) | OpSet (k : string) (v : V) | OpDel (k : string) | OpGetMethod (k : string)
  | OpUpdate (d : dict V) | OpResample (tr tr2 : TR).
  Definition gs_step (o : gs_op) (s : gstore) : gstore * res (option V) :=
    match o with
    | OpGet k => let '(s', r) := gs_get k s in (s', rmap Some r)
    | OpSet k v => let '(s', r) := gs_set k v s in (s', rmap (fun _ => None) r)
    | OpDel k => let '(s', r) := gs_del k s in (s', rmap (fun _ => None) r)
    | OpGetMethod k => gs_get_method k s
    | OpUpdate d => let '(s', r) := gs_update d s in (s', rmap (fun _ => None) r)
    | OpResample tr tr2 => let '(s', r) := gs_resample_update tr tr2 s in (s', rmap (fun _ => None) r)
    end.
  Fixpoint gs_run (ops : list gs_op) (s : gstore) : gstore * list (res (option V)) :=
    match ops with
    | [] => (s, [])
    | o :: ops' => let '(s1, r) := gs_step o s in let '(s2, rs) := gs_run ops' s1 in (s2, r :: rs)
    end.
End GlobalStore.
