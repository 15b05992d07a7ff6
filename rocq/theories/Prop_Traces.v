(** Properties C21-C25: copytraces, rerun_with_detached_values, valeq. *)
From Verif Require Import Thm_Traces.

(** ** C21 copytraces merges as specified by its mode *)

(** the addresses of the merged trace: the non-excluded addresses of the inputs, each once *)
Theorem C21_addresses : forall (L : lib) excl mode (trs : list (trace L)) tr,
  copytraces excl mode trs = Ok tr ->
  wf_dict tr /\
  forall a, In a (dkeys tr) <-> excl a = false /\ exists t, In t trs /\ In a (dkeys t).
Proof. exact copytraces_addresses. Qed.
Print Assumptions C21_addresses.

(** FirstWriteWins never fails; addresses in order of first occurrence; on overlap the
    earliest random variable is kept *)
Theorem C21_first_write_wins : forall (L : lib) excl (trs : list (trace L)),
  exists tr, copytraces excl FirstWriteWins trs = Ok tr /\
    dkeys tr = first_keys [] (filter (fun k => negb (excl k)) (dkeys (all_items trs))) /\
    forall k, dget k tr = if excl k then None else dget k (all_items trs).
Proof. exact copytraces_first. Qed.
Print Assumptions C21_first_write_wins.

(** LastWriteWins: the latest random variable is kept, at the position of the first *)
Theorem C21_last_write_wins : forall (L : lib) excl (trs : list (trace L)),
  exists tr, copytraces excl LastWriteWins trs = Ok tr /\
    dkeys tr = first_keys [] (filter (fun k => negb (excl k)) (dkeys (all_items trs))) /\
    forall k, dget k tr = if excl k then None else dget k (rev (all_items trs)).
Proof. exact copytraces_last. Qed.
Print Assumptions C21_last_write_wins.

(** NoOverlaps: raises RuntimeError iff some non-excluded address occurs twice; otherwise the
    result is the concatenation of the non-excluded items *)
Theorem C21_no_overlaps : forall (L : lib) excl (trs : list (trace L)),
  (NoDup (filter (fun k => negb (excl k)) (dkeys (all_items trs))) ->
     copytraces excl NoOverlaps trs = Ok (filter (fun kr => negb (excl (fst kr))) (all_items trs))) /\
  (~ NoDup (filter (fun k => negb (excl k)) (dkeys (all_items trs))) ->
     copytraces excl NoOverlaps trs = Err RuntimeError).
Proof. exact copytraces_no_overlaps. Qed.
Print Assumptions C21_no_overlaps.

Example C21_overlapping_traces :
  copytraces (L := ZL) (fun k => String.eqb k "y") LastWriteWins
    [[("x", node 1); ("y", node 2)]; [("z", node 5); ("x", node 3)]]
  = Ok [("x", node 3); ("z", node 5)].
Proof. reflexivity. Qed.

(** ** C22 copying one trace is the identity on content *)
Theorem C22_copy_identity : forall (L : lib) mode (tr : trace L),
  wf_dict tr -> copytraces no_excl mode [tr] = Ok tr.
Proof. exact copytraces_one. Qed.
Print Assumptions C22_copy_identity.
Example C22_nonempty_trace : wf_dict [("x", node 1); ("y", node 2)].
Proof. repeat constructor; cbn; intuition discriminate. Qed.

(** ** C23 rerunning with detached values preserves the trace *)
Theorem C23_rerun : forall (L : lib) (tr : trace L), wf_dict tr ->
  ((forall a r, In (a, r) tr -> rv_den r <> OtherRV) ->
     exists tr', rerun_with_detached_values tr = Ok tr' /\
       Forall2 (fun kr kr' =>
         fst kr' = fst kr /\
         rv_value (snd kr') = detach L (rv_value (snd kr)) /\
         rv_prov (snd kr') = rv_prov (snd kr) /\
         rv_den (snd kr') = rv_den (snd kr) /\
         match rv_den (snd kr) with
         | Proper d => rv_logp (snd kr') = logp L d (detach L (rv_value (snd kr))) /\
                       rv_rep (snd kr') = rv_rep (snd kr)
         | Improper f => rv_logp (snd kr') = f (detach L (rv_value (snd kr)))
         | OtherRV => False
         end) tr tr') /\
  ((exists a r, In (a, r) tr /\ rv_den r = OtherRV) ->
     rerun_with_detached_values tr = Err NotImplementedError).
Proof. exact rerun_spec. Qed.
Print Assumptions C23_rerun.
Example C23_supported_trace :
  let tr := [("x", node 1); ("y", mkRV (L := ZL) (Improper (L := ZL) (fun v => v)) (zten 4) (zten 4) OBSERVED true false)] in
  wf_dict tr /\ forall a r, In (a, r) tr -> rv_den r <> OtherRV (L := ZL).
Proof.
  split; [repeat constructor; cbn; intuition discriminate|].
  cbn. intros a r [E|[E|[]]]; injection E as <- <-; discriminate.
Qed.

(** ** C24 valeq decides value-equivalence on the selected names *)
Theorem C24_valeq : forall (L : lib) (t1 t2 : trace L) nodes check_exist strict,
  match nodes with NodesPairs (_ :: _) => False | _ => True end ->
  (valeq t1 t2 nodes check_exist strict = Ok true <->
    forall a, selected t1 t2 nodes strict a -> value_equal t1 t2 a) /\
  (valeq t1 t2 nodes check_exist strict = Ok true \/
   valeq t1 t2 nodes check_exist strict = Err PlainException).
Proof. exact valeq_spec. Qed.
Print Assumptions C24_valeq.
(** the remaining kind of argument, a non-empty list of pairs, is rejected *)
Theorem C24_pairs_rejected : forall (L : lib) (t1 t2 : trace L) p ps check_exist strict,
  valeq t1 t2 (NodesPairs (p :: ps)) check_exist strict = Err NotImplementedError.
Proof. reflexivity. Qed.
Print Assumptions C24_pairs_rejected.
Example C24_equal_on_common_names :
  valeq (L := ZL) [("x", node 1); ("y", node 2)] [("z", node 5); ("x", node 1)] NodesNone true false = Ok true /\
  valeq (L := ZL) [("x", node 1); ("y", node 2)] [("z", node 5); ("x", node 1)] NodesNone true true = Err PlainException.
Proof. split; reflexivity. Qed.

(** ** C25 valeq honours check_exist: refuted
    The documented meaning of check_exist=False is that only names existing in both traces are
    compared.  The code never reads the flag: *)
Theorem C25_check_exist_refuted :
  exists (L : lib) (t1 t2 : trace L) (names : list string),
    (forall a, In a names -> In a (dkeys t1) -> In a (dkeys t2) -> value_equal t1 t2 a) /\
    (exists a, In a names /\ In a (dkeys t1) /\ In a (dkeys t2)) /\
    valeq t1 t2 (NodesDict names) false false = Err PlainException.
Proof.
  exists ZL, [("x", node 1); ("y", node 2)], [("x", node 1)], ["x"; "y"].
  split; [|split; [|reflexivity]].
  - cbn. intros a [<-|[<-|[]]] _ H2.
    + exists (node 1), (node 1). repeat split.
    + destruct H2 as [H2|[]]. discriminate.
  - exists "x". cbn. tauto.
Qed.
Print Assumptions C25_check_exist_refuted.
(** ... on any input *)
Theorem C25_check_exist_ignored : forall (L : lib) (t1 t2 : trace L) nodes strict,
  valeq t1 t2 nodes true strict = valeq t1 t2 nodes false strict.
Proof. reflexivity. Qed.
Print Assumptions C25_check_exist_ignored.
