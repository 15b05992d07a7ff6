(** Model of /repo/combinators/resamplers.py. *)
From Verif Require Export Inference Arrays.

(** Tensors of the library seen as arrays. *)
Record array_view (L : lib) : Type := mkView {
  to_arr : T L -> arr;
  of_arr : arr -> T L;
  to_of : forall a, to_arr (of_arr a) = a;
  of_tensor : forall a, is_tensor L (of_arr a) = true }.
Arguments to_arr {L}. Arguments of_arr {L}.

(** the stratified points (k + u) / n, /repo/combinators/resamplers.py:126 *)
Definition usteps (n : nat) (u : R) : list R := map (fun k => ((INR k + u) / INR n)%R) (seq 0 n).

(** ancestor_indices_systematic on one batch entry, with offset [u]:
    /repo/combinators/resamplers.py:126-133 *)
Definition ancestors_of (lw : list ereal) (u : R) : list nat :=
  let nws := softmax lw in
  let csum := cumsum nws in
  let cmax := rmax csum in
  let ncsum := map (fun x => (x / cmax)%R) csum in
  map (lower_bound ncsum) (usteps (length lw) u).

Section Resamplers.
  Context {L : lib} (W : array_view L).

  (** Resampler.pick with sample_dims = 0, /repo/combinators/resamplers.py:37-48.  gather
      raises on an index that is out of range. Gradients through gather are not modelled. *)
  Definition pick (z : T L) (aidx : iarr) : res (T L) :=
    if negb (is_tensor L z) then Err AttributeError else
    let a := to_arr W z in
    let r := length (ishape aidx) in
    if negb (shape_eqb (firstn r (shape a)) (ishape aidx)) then Err AssertionError else
    if negb (forallb (fun i => iat aidx i <? nth 0 (shape a) 0) (indices (ishape aidx))) then Err RuntimeError else
    Ok (of_arr W (mkArr (shape a) (fun idx => at_ a (iat aidx (firstn r idx) :: tl idx)))).

  (** ancestor_indices_systematic with sample_dims = 0, /repo/combinators/resamplers.py:120-135:
      one offset per batch entry; the index array has shape (n, b).  searchsorted raises unless
      the log-weights are a vector or a matrix with b columns. *)
  Definition ancestor_indices (lw : arr) (batch_dim : Z) : stree L (res iarr) :=
    match shape lw with
    | [] => Leaf (Err IndexError)
    | n :: sh =>
        match norm_dim (length (shape lw)) batch_dim with
        | None => Leaf (Err IndexError)
        | Some d =>
            let b := nth d (shape lw) 0 in
            Draw DrawRand (fun v =>
              let u j := fin (at_ (to_arr W v) [j]) in
              let aidx col := mkIarr [n; b] (fun idx =>
                 nth (nth 0 idx 0) (ancestors_of (fiber0 lw (col (nth 1 idx 0))) (u (nth 1 idx 0))) 0) in
              if n =? 0 then Leaf (Err RuntimeError) else
              match sh with
              | [] => Leaf (Ok (aidx (fun _ => [])))
              | [m] => if m =? b then Leaf (Ok (aidx (fun j => [j]))) else Leaf (Err RuntimeError)
              | _ => Leaf (Err RuntimeError)
              end)
        end
    end.

  (** the loop over the nodes, /repo/combinators/resamplers.py:80-109 *)
  Definition resample_rv (aidx : iarr) (r : rv L) : res (rv L) :=
    if negb (rv_resamplable r) || is_observed r then Ok r else
    rbind (pick (rv_value r) aidx) (fun value =>
    rbind (pick (rv_logp r) aidx) (fun log_prob =>
    match rv_den r with
    | Proper d => Ok (mkRV (Proper d) value log_prob (rv_prov r) (rv_rep r) true)
    | Improper f => Ok (mkRV (Improper f) value log_prob (rv_prov r) true true)
    | OtherRV => Err NotImplementedError
    end)).
  Fixpoint resample_nodes (aidx : iarr) (tr : trace L) : res (trace L) :=
    match tr with
    | [] => Ok []
    | (k, r) :: tr' =>
        rbind (resample_rv aidx r) (fun r' =>
        rbind (resample_nodes aidx tr') (fun tr2 => Ok ((k, r') :: tr2)))
    end.

  (** the new log-weight, /repo/combinators/resamplers.py:111-117 *)
  Definition mean_weight (lw : arr) : arr :=
    mkArr (shape lw) (fun idx =>
      logsumexp (map (eshift (- ln (INR (nth 0 (shape lw) 0)))) (fiber0 lw (tl idx)))).
  Definition log_softmax (lw : arr) : arr :=
    mkArr (shape lw) (fun idx => elog (nth (nth 0 idx 0) (softmax (fiber0 lw (tl idx))) 0%R)).

  Definition is_zero (v : pyval (T L)) : bool :=
    match v with VInt z => Z.eqb z 0 | VBool b => negb b | _ => false end.

  (** Systematic.__call__, /repo/combinators/resamplers.py:56-118.  [sample_dims == 0] holds of
      the ints and bools equal to 0 (a tensor is not considered). *)
  Definition systematic_call (normalize : bool) (tr : trace L) (lw : T L) (kws : dict (pyval (T L)))
      : stree L (res (trace L * T L)) :=
    match dget "sample_dims" kws, dget "batch_dim" kws with
    | Some sd, Some bd =>
        if negb (is_zero sd) then Leaf (Err AssertionError) else
        if negb (is_tensor L lw) then Leaf (Err AttributeError) else
        let finish (lw : arr) (raidx : res iarr) : res (trace L * T L) :=
          rbind raidx (fun aidx =>
          rbind (resample_nodes aidx tr) (fun tr2 =>
          let lw1 := mean_weight lw in
          Ok (tr2, of_arr W (if normalize then log_softmax lw1 else lw1)))) in
        match bd with
        | VNone =>
            if negb (length (shape (to_arr W lw)) =? 1) then Leaf (Err AssertionError) else
            let lw1 := unsqueeze1 (to_arr W lw) in
            tbind (ancestor_indices lw1 1) (fun r => Leaf (finish lw1 (rmap squeeze1 r)))
        | VInt d => tbind (ancestor_indices (to_arr W lw) d) (fun r => Leaf (finish (to_arr W lw) r))
        | VBool b => tbind (ancestor_indices (to_arr W lw) (if b then 1 else 0)%Z) (fun r => Leaf (finish (to_arr W lw) r))
        | _ => Leaf (Err (match shape (to_arr W lw) with [] => IndexError | _ => TypeError end))
        end
    | _, _ => Leaf (Err TypeError)
    end.
  Definition systematic (normalize : bool) : resampler L :=
    mkRS (mkSig ["self"; "trace"; "log_weight"; "sample_dims"; "batch_dim"] [] false) (systematic_call normalize).
End Resamplers.

(** Model of /repo/combinators/metrics.py, on one fiber along sample_dims. *)
(** effective_sample_size, lines 20-23 *)
Definition effective_sample_size (lw : list ereal) : R :=
  let lnw := map elog (softmax lw) in
  eexp (match logsumexp (map (escale 2) lnw) with NInf => NInf | Fin r => Fin (- r) end).
(** Z_hat and log_Z_hat, lines 26-31 *)
Definition Z_hat (lw : list ereal) : R := (rsum (map eexp lw) / INR (length lw))%R.
Definition log_Z_hat (lw : list ereal) : ereal := elog (Z_hat lw).
