(** Specifications for PropertyDict and GlobalStore: a finite map and its operations. *)
From Verif Require Export OutDict.

Section MapSpec.
  Context {V : Type}.
  Definition fmap : Type := string -> option V.
  Definition fupd (k : string) (o : option V) (m : fmap) : fmap := fun k' => if String.eqb k' k then o else m k'.

  (** reading and deleting a missing name raise [missing] *)
  Definition read (missing : exn) (k : string) (m : fmap) : fmap * res (option V) :=
    (m, match m k with Some v => Ok (Some v) | None => Err missing end).
  Definition write (k : string) (v : V) (m : fmap) : fmap * res (option V) := (fupd k (Some v) m, Ok None).
  Definition delete (missing : exn) (k : string) (m : fmap) : fmap * res (option V) :=
    match m k with Some _ => (fupd k None m, Ok None) | None => (m, Err missing) end.

  (** attributes are items *)
  Definition pd_spec (o : pd_op V) (m : fmap) : fmap * res (option V) :=
    match o with
    | GetAttr n => read AttributeError n m
    | SetAttr n v | SetItem n v => write n v m
    | DelAttr n => delete AttributeError n m
    | GetItem n => read KeyError n m
    | DelItem n => delete KeyError n m
    end.
  Fixpoint pd_spec_run (ops : list (pd_op V)) (m : fmap) : list (res (option V)) :=
    match ops with
    | [] => []
    | o :: ops' => snd (pd_spec o m) :: pd_spec_run ops' (fst (pd_spec o m))
    end.
  Definition op_name (o : pd_op V) : string :=
    match o with GetAttr n | SetAttr n _ | DelAttr n | GetItem n | SetItem n _ | DelItem n => n end.

  (** a dict *)
  Definition gs_spec {TR} (o : @gs_op V TR) (m : fmap) : fmap * res (option V) :=
    match o with
    | OpGet k => read KeyError k m
    | OpSet k v => write k v m
    | OpDel k => delete KeyError k m
    | OpGetMethod k => (m, Ok (m k))
    | OpUpdate d => (fold_left (fun m kv => fupd (fst kv) (Some (snd kv)) m) d m, Ok None)
    | OpResample _ _ => (m, Ok None)
    end.
  Fixpoint gs_spec_run {TR} (ops : list (@gs_op V TR)) (m : fmap) : list (res (option V)) :=
    match ops with
    | [] => []
    | o :: ops' => snd (gs_spec o m) :: gs_spec_run ops' (fst (gs_spec o m))
    end.
End MapSpec.
Arguments fmap V : clear implicits.
