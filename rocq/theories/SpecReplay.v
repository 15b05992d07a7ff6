(** Words for property C100: calling a program again, under (part of) a trace it returned. *)
From Verif Require Export Spec.

(** A model made of sample and observe statements (and reads and writes of the global store); what it
    does depends on the values of its variables only, not on the substituted trace or on where a value
    came from. *)
Inductive statements {L : lib} : model L -> Prop :=
| st_ret o : statements (MRet o)
| st_raise e : statements (MRaise e)
| st_var a d v rep k : (forall x, statements (k x)) -> statements (MVar a d (option_map (fun x => (x, None)) v) rep k)
| st_get key k : (forall x, statements (k x)) -> statements (MGetStore key k)
| st_set key w k : statements k -> statements (MSetStore key w k).

(** [ct] gives the addresses of [tr] that it has the values they have in [tr], and has the same of them
    observed; it may have other addresses *)
Definition agrees {L : lib} (ct tr : trace L) : Prop :=
  forall a r r', dget a tr = Some r -> dget a ct = Some r' -> rv_value r' = rv_value r /\ is_observed r' = is_observed r.

(** the same trace, with the variables that are in [ct] marked REUSED *)
Definition reused_from {L : lib} (ct tr : trace L) : trace L :=
  map (fun ar => (fst ar, let r := snd ar in
    mkRV (rv_den r) (rv_value r) (rv_logp r)
      (if is_observed r then OBSERVED else if dmem (fst ar) ct then REUSED else SAMPLED) (rv_rep r) (rv_resamplable r))) tr.

(** the draws of the variables of [tr] that are not in [ct] *)
Definition other_draws {L : lib} (ct tr : trace L) : list (draw_kind L * T L) :=
  sampled_draws (filter (fun ar => negb (dmem (fst ar) ct)) tr).

(** the trace [qt] has every variable of [tr], with the same value and log-density, and observed in the
    one if it is in the other; whatever else it has is latent (auxiliary) *)
Definition covers {L : lib} (qt tr : trace L) : Prop :=
  (forall a r, dget a tr = Some r -> exists r', dget a qt = Some r' /\
     rv_value r' = rv_value r /\ rv_logp r' = rv_logp r /\ is_observed r' = is_observed r) /\
  (forall a r', dget a qt = Some r' -> dget a tr = None -> is_observed r' = false).
