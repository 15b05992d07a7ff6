(** Model of the pretty printers: show_nest and PropertyDict.__repr__ (/repo/combinators/out.py:38-85),
    show, showRV, showall, showvals, showprobs, showdists (/repo/combinators/trace/utils.py:135-201) and
    ppr_show (/repo/combinators/utils.py:80-111).  What a tensor, a distribution's property or any
    other value looks like is part of the input.  Names are ASCII: the width of a string is its number of
    bytes. *)
From Coq Require Import Ascii.
From Verif Require Import Base Utils.
Open Scope nat_scope.

(** [sep.join(l)] *)
Fixpoint join (sep : string) (l : list string) : string :=
  match l with [] => "" | [x] => x | x :: l' => (x ++ sep ++ join sep l')%string end.
Definition newline : string := String (Ascii.ascii_of_nat 10) "".
Fixpoint spaces (n : nat) : string := match n with O => "" | S n' => String " " (spaces n') end.
(** ["{:>n}".format(s)] *)
Definition pad (n : nat) (s : string) : string := (spaces (n - String.length s) ++ s)%string.
Definition widest (l : list string) : nat := fold_right Nat.max 0 (map String.length l).

(** ** Tensors *)
(** prettyshape, /repo/combinators/tensor/utils.py:71-72 *)
Definition prettyshape (size : list nat) : string :=
  match size with [] => "[]" | _ => ("[" ++ join "×" (map show size) ++ "]")%string end.
(** [s.split(".")[-1]] *)
Fixpoint after_last_dot (s cur : string) : string :=
  match s with
  | EmptyString => cur
  | String c s' => if Ascii.eqb c "." then after_last_dot s' "" else after_last_dot s' (cur ++ String c "")%string
  end.
(** what the printers look at in a tensor: the text of its dtype, its shape, whether it has a grad_fn, the
    hash of its values (a parameter: pickle, SHA-1 and base64) *)
Record aten : Type := mkAten { at_dtype : string; at_shape : list nat; at_grad : bool; at_hash : string }.
(** the argument of show and thash: a tensor or a numpy array *)
Inductive array_arg : Type := ArgTensor (t : aten) | ArgNdarray.
(** thash, /repo/combinators/tensor/utils.py:53-68, with its defaults; a numpy array has no grad_fn *)
Definition thash (a : array_arg) : res string :=
  match a with
  | ArgTensor t => Ok ("#" ++ (if at_grad t then "∇" else " ") ++ at_hash t)%string
  | ArgNdarray => Err AttributeError
  end.
(** show, /repo/combinators/tensor/utils.py:75-78; the size of a numpy array is a number, not a method *)
Definition tensor_show (a : array_arg) : res string :=
  match a with
  | ArgTensor t => rmap (fun h => (after_last_dot (at_dtype t) "" ++ prettyshape (at_shape t) ++ h)%string) (thash a)
  | ArgNdarray => Err TypeError
  end.

(** ** PropertyDicts *)
(** the values in a PropertyDict; [POther]: the text [repr] gives *)
Inductive pv : Type :=
| PTensor (text : string)
| PDict (d : list (string * pv))
| PProp (d : list (string * pv))
| POther (text : string).
(** showitem, /repo/combinators/out.py:53-61; a PropertyDict is a dict *)
Fixpoint showitem (v : pv) : string :=
  match v with
  | PTensor t => t
  | PDict d | PProp d =>
      ("dict(" ++ join ", " ((fix go l := match l with [] => [] | (k, x) :: l' => (k ++ "=" ++ showitem x)%string :: go l' end) d) ++ ")")%string
  | POther t => t
  end.
Definition is_prop (v : pv) : bool := match v with PProp _ => true | _ => false end.
(** show_nest, /repo/combinators/out.py:42-85, with [indent_len] None and the default header; max of no
    keys is a ValueError *)
Fixpoint show_nest (level : nat) (v : pv) : res string :=
  match v with
  | PProp d =>
      let w := widest (map fst d) in
      let max_len := w + level * w in
      let delimiter := (newline ++ "  ")%string in
      let unnested := join delimiter (map (fun kv => (pad max_len (fst kv) ++ ": " ++ showitem (snd kv))%string) (filter (fun kv => negb (is_prop (snd kv))) d)) in
      match d with
      | [] => Err ValueError
      | _ =>
          rbind ((fix go (l : list (string * pv)) : res (list string) :=
                    match l with
                    | [] => Ok []
                    | (k, x) :: l' =>
                        if is_prop x
                        then rbind (show_nest (S level) x) (fun s =>
                             rmap (cons (pad max_len (k ++ "<PropertyDict>") ++ ": " ++ newline ++ s)%string) (go l'))
                        else go l'
                    end) d) (fun rows =>
          Ok (unnested ++ delimiter ++ join delimiter rows)%string)
      end
  | _ => Err AttributeError
  end.
(** PropertyDict.__repr__, /repo/combinators/out.py:38-39 *)
Definition pd_repr (d : list (string * pv)) : res string :=
  rmap (fun s => ("<PropertyDict>:" ++ newline ++ s)%string) (show_nest 0 (PProp d)).

(** ** Traces *)
(** a random variable: its distribution, if it has one, as class name and properties, and its
    tensors (value, log_prob), all as text *)
Record drv : Type := mkDrv { d_dist : option (string * list (string * string)); d_attrs : dict string }.
(** show, /repo/combinators/trace/utils.py:135-140: tensor_utils.show has no parameter [fix_width] *)
Definition show_trace (tr : dict drv) : res string :=
  match tr with [] => Ok "{}" | _ => Err TypeError end.
Fixpoint attrs_of (args : list string) (v : drv) : res (list string) :=
  match args with
  | [] => Ok []
  | a :: args' => match dget a (d_attrs v) with
                  | None => Err AttributeError
                  | Some t => rmap (cons (a ++ "=" ++ t)%string) (attrs_of args' v)
                  end
  end.
(** showRV, /repo/combinators/trace/utils.py:150-161 *)
Definition showRV (args : list string) (dists : bool) (v : drv) : res string :=
  rbind (attrs_of args v) (fun arglist =>
  if dists then
    match d_dist v with
    | None => Err AttributeError
    | Some (cls, props) =>
        let name := (cls ++ "(")%string in
        let sattrs := map (fun p => (fst p ++ "=" ++ snd p)%string) props in
        Ok (name ++ join ", " (arglist ++ [("dist=" ++ name ++ "(" ++ join ", " sattrs ++ ")")%string]))%string
    end
  else Ok (join ", " arglist)).
(** [items.sort()]: names are distinct, so that the random variables are never compared *)
Fixpoint insert_item (kv : string * drv) (l : list (string * drv)) : list (string * drv) :=
  match l with
  | [] => [kv]
  | x :: l' => if String.leb (fst kv) (fst x) then kv :: l else x :: insert_item kv l'
  end.
Definition sort_items (l : list (string * drv)) : list (string * drv) := fold_right insert_item [] l.
Fixpoint mapR {A B} (f : A -> res B) (l : list A) : res (list B) :=
  match l with [] => Ok [] | a :: l' => rbind (f a) (fun b => rmap (cons b) (mapR f l')) end.
Definition nl : ascii := Ascii.ascii_of_nat 10.
Fixpoint last_char (s : string) : option ascii :=
  match s with EmptyString => None | String c EmptyString => Some c | String _ s' => last_char s' end.
Definition arrow : string := "-➢".
(** showall, /repo/combinators/trace/utils.py:164-191; [delim[0]] of an empty delimiter is an IndexError *)
Definition showall (delim : string) (pretty : bool) (mlen : nat) (sort : bool) (args : list string) (dists : bool) (tr : dict drv) : res string :=
  match tr with
  | [] => Ok "Trace{}"
  | _ =>
      let mlen := if pretty then widest (dkeys tr) else mlen in
      let delim := if pretty then (newline ++ ",")%string else delim in
      let items := if sort then sort_items tr else tr in
      match delim with
      | EmptyString => Err IndexError
      | String c _ =>
          let pref := if Ascii.eqb c nl || match last_char delim with Some c' => Ascii.eqb c' nl | None => false end then delim else "" in
          rbind (mapR (fun kv => rmap (fun s => (pad mlen (fst kv) ++ arrow ++ s)%string) (showRV args dists (snd kv))) items) (fun rows =>
          Ok ("{" ++ pref ++ join delim rows ++ "}")%string)
      end
  end.
(** showvals, showprobs, showdists, /repo/combinators/trace/utils.py:194-206: the other arguments are
    not passed on *)
Definition showvals (delim : string) (pretty : bool) (mlen : nat) (sort : bool) (tr : dict drv) : res string :=
  showall "; " true 0 true ["value"] false tr.
Definition showprobs (delim : string) (pretty : bool) (mlen : nat) (sort : bool) (tr : dict drv) : res string :=
  showall "; " true 0 true ["log_prob"] false tr.
Definition showdists (delim : string) (pretty : bool) (mlen : nat) (sort : bool) (tr : dict drv) : res string :=
  showall "; " true 0 true [] true tr.

(** what ppr_show distinguishes; [ADist]: showDist of a distribution, [ARepr]: [repr] of anything else *)
Inductive shown : Type :=
| ATensor (text : string) | ADist (text : string) | AList (l : list shown) | ATrace (tr : dict drv) | ARv (v : drv)
| AOut (tr : dict drv) | ADict (d : list (string * shown)) | ARepr (text : string).
Fixpoint has_letter (c : ascii) (s : string) : bool :=
  match s with EmptyString => false | String c' s' => Ascii.eqb c c' || has_letter c s' end.
(** ["v" in m or m == "a"] *)
Definition in_mode (c : ascii) (m : string) : bool := has_letter c m || String.eqb m "a".
(** ppr_show, /repo/combinators/utils.py:80-111; without debug and further keyword arguments.  The
    elements of lists and dicts, and the trace of an Out, are shown in the default mode.  The text
    of a dict is that of the dict of the texts: [repr_strings]. *)
Section Ppr.
  Context (repr_strings : list (string * string) -> string).
  Definition ppr_leaf (m : string) (a : shown) : res string :=
    let args := (if in_mode "v" m then ["value"] else []) ++ (if in_mode "p" m then ["log_prob"] else []) in
    match a with
    | ATensor t | ADist t | ARepr t => Ok t
    | ATrace tr => showall "; " true 0 true args (in_mode "d" m) tr
    | ARv v => showRV args (in_mode "d" m) v
    | AOut tr => showall "; " true 0 true ["value"] true tr
    | AList _ | ADict _ => Ok ""
    end.
  Fixpoint ppr_show (m : string) (a : shown) : res string :=
    match a with
    | AList l => rmap (fun ts => ("[" ++ join ", " ts ++ "]")%string)
        ((fix go l := match l with [] => Ok [] | x :: l' => rbind (ppr_show "dv" x) (fun t => rmap (cons t) (go l')) end) l)
    | ADict d => rmap repr_strings
        ((fix go (l : list (string * shown)) := match l with [] => Ok [] | (k, x) :: l' => rbind (ppr_show "dv" x) (fun t => rmap (cons (k, t)) (go l')) end) d)
    | a => ppr_leaf m a
    end.
End Ppr.
