(** Proof that the sweeps of the Gibbs experiment keep proper weighting. *)
From Verif Require Export Thm_GibbsProper.
From Verif Require Import Thm_Proper Prop_Gibbs Thm_Systematic.
From Coq Require Import Lra.
Close Scope R_scope.
Open Scope nat_scope.

Section Lists.
  Context {A : Type}.
  Fixpoint upd (t : nat) (w : A) (ws : list A) : list A :=
    match ws with [] => [] | x :: ws' => match t with O => w :: ws' | S t' => x :: upd t' w ws' end end.
  Lemma upd_length : forall t w ws, length (upd t w ws) = length ws.
  Proof. intros t w ws. revert t. induction ws as [|x ws IH]; intros [|t]; cbn; auto. Qed.
  Lemma upd_app : forall t w ws ws', t < length ws -> upd t w (ws ++ ws') = upd t w ws ++ ws'.
  Proof. intros t w ws. revert t. induction ws as [|x ws IH]; intros [|t] ws' H; cbn in *; try lia; [reflexivity|]. rewrite IH by lia. reflexivity. Qed.
  Lemma upd_last : forall w ws x, upd (length ws) w (ws ++ [x]) = ws ++ [w].
  Proof. induction ws as [|y ws IH]; intros x; cbn; [reflexivity|]. rewrite IH. reflexivity. Qed.
  Lemma upd_map (f f' : nat -> A) t : forall n a, t < n -> (forall i, i < a + n -> i <> a + t -> f' i = f i) ->
    map f' (seq a n) = upd t (f' (a + t)) (map f (seq a n)).
  Proof.
    intros n. revert t. induction n as [|n IH]; intros t a Ht H; [lia|]. cbn [seq map]. destruct t as [|t]; cbn [upd].
    - rewrite Nat.add_0_r in *. f_equal. apply map_ext_in. intros i Hi. apply in_seq in Hi. apply H; lia.
    - f_equal; [apply H; lia|]. replace (a + S t) with (S a + t) by lia. apply IH; [lia|]. intros i Hi Hi'. apply H; lia.
  Qed.
  Lemma nth_map_seq (f : nat -> A) n i d : i < n -> nth i (map f (seq 0 n)) d = f i.
  Proof. intros H. rewrite (nth_indep _ d (f 0)) by (rewrite map_length, seq_length; exact H). rewrite (map_nth f), seq_nth by exact H. reflexivity. Qed.
  Lemma map_nth_seq (ws : list A) d : map (fun i => nth i ws d) (seq 0 (length ws)) = ws.
  Proof.
    induction ws as [|x ws IH]; [reflexivity|]. cbn [length seq map nth]. f_equal. rewrite <- seq_shift, map_map. exact IH.
  Qed.
End Lists.

Section SweepsProper.
  Context {L : lib} (HL : lib_laws L) (HT : tensor_laws L) (Hlj : forall r b p, lj_ok L r b p = true).
  Context (M : measures L) (ML : measure_laws M).
  Notation pyval := (pyval (T L)). Notation trace := (trace L). Notation out := (out L).
  Notation E := (expect M). Notation pm := (pmass M). Notation int := (integral M).
  Context (N : nets L) (same : T L -> T L -> bool) (wmean : T L -> T L -> T L) (node_sum : T L -> T L) (rs : resampler L).
  Context (Hidle : idle rs) (Hdet : forall x, n_frames L N (detach L x) = n_frames L N x).
  Context (one : T L -> Prop) (Wsp Dsp : Sp M) (HS : stacked M N one Wsp Dsp).
  Context (T_ : nat) (Hpos : 0 < T_) (c0 : dict pyval) (fr : T L).
  Context (Hc0 : dget "frames" c0 = Some (VTensor fr)) (Hfr : n_frames L N fr = T_).
  Context (Hsame : forall x, same x x = true).
  Notation calm := (calm same).
  Notation good := (good N same rs T_).
  Notation synced := (synced T_ fr).
  Notation updated := (updated T_).
  Notation before := (before T_).
  Notation masses := (masses M).

  Lemma idle_addresses : keeps_addresses rs.
  Proof. intros tr lw kws items lw2 Hwf H a. rewrite Hidle in H. apply outcome_leaf in H. injection H as -> ->. rewrite as_trace_id by exact Hwf. tauto. Qed.
  Lemma idle_observed : keeps_observed rs.
  Proof. intros tr lw kws items lw2 Hwf H a r r' Hr Hr'. rewrite Hidle in H. apply outcome_leaf in H. injection H as -> ->. rewrite as_trace_id in Hr' by exact Hwf. congruence. Qed.
  Lemma idle_quiet e : ~ resampler_raises T_ rs e.
  Proof. intros (t & s & tr & lw & kws & _ & _ & H). rewrite Hidle in H. apply outcome_leaf in H. discriminate. Qed.

  (** *** sums over positions *)
  Lemma positions_ext : forall n g g', (forall ws, length ws = n -> g ws = g' ws) -> over_positions M Wsp n g = over_positions M Wsp n g'.
  Proof.
    induction n as [|n IH]; intros g g' H; cbn [over_positions]; [apply H; reflexivity|]. apply IH. intros ws Hw. apply (int_ext M ML). intros w. apply H.
    rewrite app_length, Hw. cbn. lia.
  Qed.
  Lemma positions_swap t (G : list (T L) -> T L -> R) d : forall n, t < n ->
    over_positions M Wsp n (fun ws => int Wsp (fun w => G (upd t w ws) (nth t ws d))) = over_positions M Wsp n (fun ws => int Wsp (fun w => G ws w)).
  Proof.
    intros n. revert G. induction n as [|n IH]; intros G Ht; [lia|]. cbn [over_positions].
    destruct (Nat.eq_dec t n) as [->|Hne].
    - apply positions_ext. intros ws Hw. rewrite (int_swap M ML). apply (int_ext M ML). intros w. apply (int_ext M ML). intros w'.
      rewrite <- Hw at 1. rewrite upd_last. rewrite app_nth2 by lia. rewrite Hw, Nat.sub_diag. reflexivity.
    - rewrite (positions_ext _ _ (fun ws => int Wsp (fun w => (fun ws' w0 => int Wsp (fun w' => G (ws' ++ [w']) w0)) (upd t w ws) (nth t ws d)))).
      + rewrite (IH (fun ws' w0 => int Wsp (fun w' => G (ws' ++ [w']) w0)) ltac:(lia)). apply positions_ext. intros ws _. rewrite (int_swap M ML). reflexivity.
      + intros ws Hw. rewrite (int_swap M ML). apply (int_ext M ML). intros w. apply (int_ext M ML). intros w'.
        rewrite upd_app by lia. rewrite app_nth1 by lia. reflexivity.
  Qed.

  (** *** the densities of a step *)
  Definition step_mass (t : nat) (ws : list (T L)) (z : T L) : R :=
    (Rprod (map (fun i => pm (match i with O => prior_where0 L N | S j => prior_wheret L N (nth (Nat.min j t) ws (tzero L)) end) (nth i ws (tzero L))) (seq 0 (length ws)))
     * pm (prior_what L N) z * pm (recon L N ws z) fr)%R.
  Definition where_of (v : string -> T L) (t s : nat) : list (T L) := map (fun i => v (position_at t s i)) (seq 0 T_).
  Lemma where_length v t s : length (where_of v t s) = T_.
  Proof. unfold where_of. rewrite map_length, seq_length. reflexivity. Qed.
  Lemma step_masses v t s : masses (joint_logp N T_ fr v t s) = step_mass t (where_of v t s) (v (digits_at T_ t s)).
  Proof.
    unfold joint_logp, step_mass. rewrite (masses_app M), where_length. fold (where_of v t s). rewrite Rmult_assoc. f_equal.
    - unfold Thm_GibbsProper.masses. rewrite map_map. f_equal. apply map_ext_in. intros i Hi. apply in_seq in Hi. unfold pmass, position_prior.
      unfold where_of. rewrite !nth_map_seq by lia. destruct i as [|j]; [reflexivity|]. rewrite nth_map_seq by lia.
      assert (Ep : position_at t s (Nat.min j t) = z_where (Z.of_nat (Nat.min j t)) (Z.of_nat s)).
      { unfold position_at, current_where. destruct (Z.leb_spec (Z.of_nat (Nat.min j t)) (Z.of_nat t)); [reflexivity|lia]. }
      rewrite Ep. reflexivity.
    - unfold Thm_GibbsProper.masses. cbn [map Rprod fold_right]. unfold pmass. ring.
  Qed.
  Lemma step_mass_pos t ws z : (0 < step_mass t ws z)%R.
  Proof.
    unfold step_mass. repeat apply Rmult_lt_0_compat; try apply pm_pos. apply Rprod_pos. intros x Hx. apply in_map_iff in Hx. destruct Hx as (i & <- & _). apply pm_pos.
  Qed.
  Lemma step_video t ws z : length ws <= S t -> step_mass t ws z = video_mass M N fr ws z.
  Proof.
    intros Hl. unfold step_mass, video_mass. do 2 f_equal.
    pose proof (walk_seq M N (fun i => nth i ws (tzero L)) (length ws) 0) as W. rewrite map_nth_seq in W. rewrite W. unfold Thm_GibbsProper.masses. rewrite map_map. f_equal.
    apply map_ext_in. intros i Hi. apply in_seq in Hi. unfold pmass. destruct i as [|j]; [reflexivity|]. rewrite Nat.min_l by lia. reflexivity.
  Qed.

  (** *** proper weighting after step [t] of sweep [s] *)
  Definition sampled_step (t s : nat) (h : list (T L) -> T L -> R) (x : res out * st L) : R :=
    match fst x with
    | Ok o => (exp (lw M (out_lw o)) * h (where_of (value_at (out_trace o)) t s) (value_at (out_trace o) (digits_at T_ t s)))%R
    | Err _ => 0%R
    end.
  Definition PW (t s : nat) (q : inf L) : Prop := forall kws s0 h, plain_call kws -> calm s0 ->
    E (run q (VDict c0) kws s0) (sampled_step t s h) = over_positions M Wsp T_ (fun ws => int Dsp (fun z => (step_mass t ws z * h ws z)%R)).
  Definition recorded (t s : nat) (q : inf L) : Prop := forall kws s0 o s', plain_call kws -> calm s0 -> returns (run q (VDict c0) kws) s0 o s' ->
    masses (map (density_at (out_trace o)) (posterior_addresses T_ t s)) = step_mass t (where_of (value_at (out_trace o)) t s) (value_at (out_trace o) (digits_at T_ t s)).
  Definition settled (t s : nat) (q : inf L) : Prop := forall kws s0, plain_call kws -> calm s0 ->
    always (run q (VDict c0) kws s0) (good t s) /\ forall o s', returns (run q (VDict c0) kws) s0 o s' -> synced t s o s'.

  (** *** Resample *)
  Lemma resample_proper oid t s q : settled t s q -> PW t s q -> PW t s (resampled L rs oid q).
  Proof.
    intros Hset Hq kws s0 h Hp Hcalm. assert (Hp1 : plain_call (sub_kwargs (L := L) VNone kws)) by apply plain_sub, Hp.
    rewrite <- (Hq _ s0 h Hp1 Hcalm). destruct (Hset _ s0 Hp1 Hcalm) as [Hg _].
    assert (Hb := bind_call_ok kws (plain_clash ["self"; "c"] kws Hp ltac:(cbn; tauto))).
    unfold resampled. cbn [run]. rewrite mbind_lift, Hb. cbn zeta. rewrite (sub_kwargs_eq kws _ VNone Hb).
    unfold mbind at 1. rewrite (E_tbind M ML). apply (E_ext_out M ML). intros [[qo|e] s1] Ho; cbn [fst snd]; [|reflexivity].
    pose proof (Hg _ Ho) as Hgood. unfold Thm_GibbsRun.good in Hgood. cbn [fst snd] in Hgood. destruct Hgood as (Hwf & Hk & (d & Ed & _ & _ & _ & Ht) & _ & Hc1).
    unfold mbind at 1. rewrite Hidle. cbn [tbind fst snd]. rewrite as_trace_id by exact Hwf.
    destruct (Thm_GibbsRun.resample_output_ok (out_trace qo) d Ht) as (c2 & E2 & _). rewrite Ed, mbind_lift, E2.
    unfold mbind at 1, resample_update. rewrite (proj2 Hc1). unfold apg_hook. cbn [tbind fst snd]. rewrite mbind_lift. unfold add_loss, default_loss. cbn [rmap rbind].
    cbn [ret expect]. unfold ret. cbn [expect]. unfold sampled_step. cbn [fst]. rewrite subs_trace, subs_lw. reflexivity.
  Qed.
  Lemma resample_recorded oid t s q : settled t s q -> recorded t s q -> recorded t s (resampled L rs oid q).
  Proof.
    intros Hset Hq kws s0 o s' Hp Hcalm H. apply run_resample_returns in H; [|apply Hp].
    destruct H as (qo & s1 & items & lw2 & c1 & c2 & st2 & _ & H & Hitems & _ & _ & _ & -> & ->).
    assert (Hp1 : plain_call (sub_kwargs (L := L) VNone kws)) by apply plain_sub, Hp.
    destruct (Hset _ s0 Hp1 Hcalm) as [Hg _]. pose proof (Hg _ H) as Hgood. unfold Thm_GibbsRun.good in Hgood. cbn [fst snd] in Hgood. destruct Hgood as (Hwf & _).
    rewrite Hidle in Hitems. apply outcome_leaf in Hitems. injection Hitems as <- <-. rewrite subs_trace. cbn [out_trace]. rewrite as_trace_id by exact Hwf.
    exact (Hq _ _ _ _ Hp1 Hcalm H).
  Qed.

  (** *** one step *)
  Lemma extend_mass oid p f o v (kws : dict pyval) s c : plain_call kws -> wf_st s ->
    (forall v kws s, plain_call kws -> E (run p v kws s) (fun _ => c) = c) -> (forall v kws s, plain_call kws -> E (run f v kws s) (fun _ => c) = c) ->
    E (run (IExtend oid p f o) v kws s) (fun _ => c) = c.
  Proof.
    intros Hp Hs H1 H2. rewrite (E_teq M ML _ _ _ (run_extend_eq oid p f o v kws s (proj1 Hp) Hs ltac:(apply plain_clash; [exact Hp|cbn; tauto]))).
    assert (Hp1 : plain_call (sub_kwargs (L := L) (in_ix o) kws)) by apply plain_sub, Hp.
    rewrite (E_tbind M ML). etransitivity; [|apply (H1 v (sub_kwargs (in_ix o) kws)); exact Hp1]. apply (E_ext_out M ML). intros [[po|e] s1] _; cbn [fst snd]; [|reflexivity].
    rewrite (E_tbind M ML). etransitivity; [|apply (H2 (out_output po) (sub_kwargs (in_ix o) kws)); exact Hp1]. apply (E_ext_out M ML). intros [[fo|e] s2] _; reflexivity.
  Qed.

  Definition enc_of (t : nat) : inf L := if Nat.eqb t T_ then enc_digit L N else enc_coor L N.
  Definition id_of (t s : nat) : nat := 8 + T_ + 4 * (s * (T_ + 1) + t).
  Definition fwd_opts (t s : nat) : infopts L := copts L default_loss (apg_ix L (Z.of_nat t) (Z.of_nat s) "forward") true.
  Definition rev_ext (t s : nat) : inf L :=
    IExtend (id_of t s + 1) (dec L N) (enc_of t) (copts L default_loss (apg_ix L (Z.of_nat t) (Z.of_nat s) "reverse") false).
  Definition fwd_comp (t s : nat) (q : inf L) : inf L := ICompose (id_of t s + 2) (enc_of t) q (fwd_opts t s).
  Definition step_opts (t s : nat) : infopts L := copts L (loss_apg L wmean node_sum) (apg_ix L (Z.of_nat t) (Z.of_nat s) "propose") false.

  Lemma enc_mass t v kws s c : plain_call kws -> E (run (enc_of t) v kws s) (fun _ => c) = c.
  Proof. intros Hp. unfold enc_of. destruct (Nat.eqb t T_); apply (prog_mass M ML); (exact Hp || reflexivity). Qed.

  Definition after_fwd (t s : nat) (q : inf L) (kws : dict pyval) (h : list (T L) -> T L -> R) (o1 o2 : out) (s2 : st L) : R :=
    let kw1 := sub_kwargs (in_ix (step_opts t s)) kws in
    match compose_tail (fwd_opts t s) kw1 o1 o2 with
    | Ok qo => E (run (rev_ext t s) (VDict c0) kw1 (set_cond (oid_of (rev_ext t s)) (Some (out_trace qo)) s2)) (fun y => match fst y with
          | Ok po => sampled_step t s h (propose_tail (step_opts t s) (rev_ext t s) (fwd_comp t s q) None true kws qo po, set_cond (oid_of (rev_ext t s)) None (snd y))
          | Err e => sampled_step t s h (Err e, set_cond (oid_of (rev_ext t s)) None (snd y)) end)
    | Err e => 0%R
    end.
  Definition step_ratio (t s' : nat) (o1 : out) (nd : rv L) : R :=
    let v := value_at ((updated t (S s'), nd) :: out_trace o1) in
    (exp (lw M (out_lw o1)) *
     ((step_mass t (where_of v t (S s')) (v (digits_at T_ t (S s'))) * exp (lw M (reverse_logp N T_ fr v t (S s')))) /
      (exp (lw M (rv_logp nd)) * masses (map (density_at (out_trace o1)) (previous_addresses T_ t s')))))%R.

  Lemma step_core q t s' kws s0 h o1 s1 o2 s2 nd : t <= T_ -> plain_call kws -> calm s0 ->
    settled (fst (before t s')) (snd (before t s')) q ->
    let kw1 := sub_kwargs (in_ix (step_opts t (S s'))) kws in let kwf := sub_kwargs (in_ix (fwd_opts t (S s'))) kw1 in
    outcome (run q (VDict c0) kwf s0) (Ok o1, s1) ->
    outcome (run (enc_of t) (out_output o1) kwf s1) (Ok o2, s2) ->
    out_trace o2 = [(updated t (S s'), nd)] ->
    let v := value_at ((updated t (S s'), nd) :: out_trace o1) in
    after_fwd t (S s') q kws h o1 o2 s2 = (step_ratio t s' o1 nd * h (where_of v t (S s')) (v (digits_at T_ t (S s'))))%R.
  Proof.
    intros Ht Hp Hcalm Hset kw1 kwf H1 H2 Htr2 v.
    assert (Hp1 : plain_call kw1) by apply plain_sub, Hp. assert (Hpf : plain_call kwf) by apply plain_sub, Hp1.
    assert (Hwst : wf_st s0) by (eapply calm_wf, Hcalm).
    pose proof (fun kws Hp => proj1 (Hset kws s0 Hp Hcalm)) as Hg. pose proof (fun kws o1 s1 Hp => proj2 (Hset kws s0 Hp Hcalm) o1 s1) as Hs.
    pose proof (Hg _ Hpf _ H1) as Hgood. unfold Thm_GibbsRun.good in Hgood. cbn [fst snd] in Hgood. destruct Hgood as (Hwf1 & Hk1 & _ & _ & Hcalm1).
    assert (Hnew : ~ In (updated t (S s')) (dkeys (out_trace o1))).
    { rewrite Hk1, <- previous_before. destruct (updated_new N T_ Hpos fr Hfr t s') as [H|H]; [exact H|lia]. }
    destruct (compose_tail_ok (fwd_opts t (S s')) kw1 o1 o2) as (qo & Er & Htq & _);
      [reflexivity|exact Hwf1|rewrite Htr2; repeat constructor; intros []|rewrite Htr2; intros k [<-|[]]; exact Hnew|].
    pose proof (compose_outcome same wmean fr (id_of t (S s') + 2) _ _ (fwd_opts t (S s')) _ kw1 s0 _ _ _ _ Hp1 H1 H2) as Hout. rewrite Er in Hout.
    unfold after_fwd. fold kw1. rewrite Er. rewrite Htr2 in Htq. cbn [app] in Htq.
    assert (Hwq : wf_dict (out_trace qo)).
    { rewrite Htq. apply (wf_app L [(_, _)]); [repeat constructor; intros []|exact Hwf1|]. intros k [<-|[]]. exact Hnew. }
    assert (Hwcs : wf_st (set_cond (oid_of (rev_ext t (S s'))) (Some (out_trace qo)) s2)).
    { apply wf_set_cond; [|intros tr [= <-]; exact Hwq]. eapply run_wf_st; [exact Hout|exact Hwst]. }
    assert (Hixf : kwarg "ix" VNone kwf = apg_ix L (Z.of_nat t) (Z.of_nat (S s')) "forward") by (apply sub_ix; reflexivity).
    assert (Hlw2 : out_lw o2 = tzero L).
    { destruct (fwd_spec HL N Hdet T_ Hpos fr Hfr kwf s1 t s' o1 o2 s2 Hpf Ht Hixf (proj1 Hcalm1) (Hs _ _ _ Hpf H1) H2) as (_ & _ & _ & E & _). exact E. }
    assert (Hlwq : out_lw qo = tadd L (out_lw o1) (tzero L)).
    { clear - Er Hlw2. unfold compose_tail in Er. destruct (copytraces _ _ _); cbn [rbind] in Er; [|discriminate]. destruct (sinter _ _); [|discriminate].
      unfold add_loss in Er. cbn [in_loss fwd_opts copts rmap rbind] in Er. unfold default_loss in Er. cbn [rmap rbind] in Er. injection Er as <-. rewrite subs_lw. cbn [with_loss out_lw]. rewrite Hlw2. reflexivity. }
    rewrite (E_ext_out M ML _ _ (fun _ => (step_ratio t s' o1 nd * h (where_of v t (S s')) (v (digits_at T_ t (S s'))))%R)).
    { unfold rev_ext. apply extend_mass; [exact Hp1|exact Hwcs| |].
      - intros v0 kws0 st0 Hp0. apply (prog_mass M ML); [exact Hp0|reflexivity].
      - intros v0 kws0 st0 Hp0. apply enc_mass, Hp0. }
    intros y Hpo.
    pose proof (propose_outcome same wmean fr (id_of t (S s')) (rev_ext t (S s')) (fwd_comp t (S s') q) (step_opts t (S s')) None true _ kws s0 _ _ _ Hp Hwst eq_refl Hwq Hout Hpo) as Hr.
    change (IPropose (id_of t (S s')) (rev_ext t (S s')) (fwd_comp t (S s') q) (step_opts t (S s')) None true) with (gibbs_step L N wmean node_sum T_ (S s') t q) in Hr.
    pose proof (step_good HL HT Hlj N same wmean node_sum rs Hdet T_ Hpos c0 fr Hc0 Hfr q t s' kws s0 Ht Hp Hcalm Hg _ Hr) as Hst. unfold stepped in Hst. cbn [fst snd] in Hst.
    destruct y as [[po|e] s3]; cbn [fst snd] in *; [|exfalso; exact (idle_quiet _ Hst)].
    destruct (propose_tail (step_opts t (S s')) (rev_ext t (S s')) (fwd_comp t (S s') q) None true kws qo po) as [r|e] eqn:Er'; [|exfalso; exact (idle_quiet _ Hst)].
    assert (Hwp : wf_dict (out_trace po)) by (exact (proj1 (run_returns_wf _ _ _ _ _ _ (proj1 Hp1) Hwcs Hpo))).
    destruct (propose_tail_px _ _ _ _ _ _ _ _ Hwq Hwp Er') as (px & Epx & Ept & Hlw).
    destruct (step_synced HL N same wmean node_sum rs Hdet T_ Hpos c0 fr Hc0 Hfr q t s' kws s0 r _ Ht Hp Hcalm Hg Hs Hr) as (_ & kwq & prev & st1 & _ & _ & _ & _ & Hw).
    destruct Hw as (px' & F & Epx' & _ & _ & _ & Hval & _ & _ & nd' & Ept' & -> & Hinc). rewrite Epx in Epx'. injection Epx' as <-.
    rewrite Ept in Ept', Hval, Hinc. rewrite Htq in Ept', Hval, Hinc. injection Ept' as <- Eprev. fold v in Hval, Hinc.
    unfold sampled_step. cbn [fst].
    assert (Ew : where_of (value_at (out_trace r)) t (S s') = where_of v t (S s')).
    { apply map_ext_in. intros i Hi. apply in_seq in Hi. apply Hval; [|unfold position_at, current_where; destruct (_ <=? _)%Z; discriminate].
      apply (posterior_in N T_ Hpos fr Hfr). left. exists i. split; [lia|reflexivity]. }
    assert (Ez : value_at (out_trace r) (digits_at T_ t (S s')) = v (digits_at T_ t (S s'))).
    { apply Hval; [|discriminate]. apply (posterior_in N T_ Hpos fr Hfr). auto. }
    rewrite Ew, Ez. f_equal. unfold step_ratio. fold v.
    rewrite Hlw, (detach_id M ML), (lw_add M ML), Hlwq, (lw_add M ML), (lw_zero M ML), Rplus_0_r, Hinc, (lw_sub M ML), exp_plus.
    unfold Rminus. rewrite exp_plus, exp_Ropp, !(total_mass M ML), masses_app, step_masses, <- Eprev. unfold Rdiv. do 2 f_equal.
    - f_equal. unfold Thm_GibbsProper.masses. cbn [map Rprod fold_right]. ring.
  Qed.

  Lemma step_E q t s' kws s0 h : plain_call kws -> calm s0 ->
    settled (fst (before t s')) (snd (before t s')) q ->
    let kw1 := sub_kwargs (in_ix (step_opts t (S s'))) kws in let kwf := sub_kwargs (in_ix (fwd_opts t (S s'))) kw1 in
    E (run (gibbs_step L N wmean node_sum T_ (S s') t q) (VDict c0) kws s0) (sampled_step t (S s') h) =
    E (run q (VDict c0) kwf s0) (fun x => match fst x with
      | Ok o1 => E (run (enc_of t) (out_output o1) kwf (snd x)) (fun y => match fst y with Ok o2 => after_fwd t (S s') q kws h o1 o2 (snd y) | Err _ => 0%R end)
      | Err _ => 0%R end).
  Proof.
    intros Hp Hcalm Hset kw1 kwf. assert (Hp1 : plain_call kw1) by apply plain_sub, Hp. assert (Hpf : plain_call kwf) by apply plain_sub, Hp1.
    assert (Hwst : wf_st s0) by (eapply calm_wf, Hcalm).
    change (gibbs_step L N wmean node_sum T_ (S s') t q) with (IPropose (id_of t (S s')) (rev_ext t (S s')) (fwd_comp t (S s') q) (step_opts t (S s')) None true).
    rewrite (propose_E M ML same wmean fr); [|exact Hp|exact Hwst|reflexivity|].
    2:{ intros qo s1 Hq. exact (proj1 (run_returns_wf _ _ _ _ _ _ (wf_sub_kwargs _ _ (proj1 Hp)) Hwst Hq)). }
    fold kw1. unfold fwd_comp at 1. rewrite (compose_E M ML same wmean fr) by exact Hp1. fold kwf.
    apply (E_ext_out M ML). intros [[o1|e] s1] _; cbn [fst snd]; [|reflexivity].
    apply (E_ext_out M ML). intros [[o2|e] s2] _; cbn [fst snd]; [|reflexivity].
    unfold after_fwd. fold kw1. destruct (compose_tail _ _ _ _) as [qo|e]; reflexivity.
  Qed.

  Lemma position_step t s' i : t <= T_ -> position_at t (S s') i = z_where (Z.of_nat i) (Z.of_nat (if Nat.leb i t then S s' else s')).
  Proof.
    intros Ht. unfold position_at, current_where. destruct (Z.leb_spec (Z.of_nat i) (Z.of_nat t)), (Nat.leb_spec i t); try lia; [reflexivity|]. f_equal. lia.
  Qed.
  Lemma position_before t s' i : t <= T_ -> i < T_ ->
    position_at (fst (before t s')) (snd (before t s')) i = z_where (Z.of_nat i) (Z.of_nat (if Nat.ltb i t then S s' else s')).
  Proof.
    intros Ht Hi. destruct t as [|t]; cbn [Thm_GibbsRun.before fst snd].
    - unfold position_at, current_where. destruct (Z.leb_spec (Z.of_nat i) (Z.of_nat T_)); [|lia]. destruct (Nat.ltb_spec i 0); [lia|reflexivity].
    - rewrite position_step by lia. reflexivity.
  Qed.
  Lemma digits_before t s' : t <= T_ -> digits_at T_ (fst (before t s')) (snd (before t s')) = z_what (Z.of_nat s').
  Proof.
    intros Ht. unfold digits_at. destruct t as [|t]; cbn [Thm_GibbsRun.before fst snd]; [rewrite Nat.eqb_refl; reflexivity|].
    destruct (Nat.eqb_spec t T_); [lia|]. f_equal. lia.
  Qed.
  Definition old_density (t : nat) (ws : list (T L)) (z : T L) : R :=
    let w := nth t ws (tzero L) in
    pm (coor_all L N fr (Some z) (Z.of_nat t) (map (coor_slice L N w) (seq 0 (n_objects L N)))) w.
  Lemma old_one t z : int Wsp (fun w => pm (coor_all L N fr (Some z) (Z.of_nat t) (map (coor_slice L N w) (seq 0 (n_objects L N)))) w) = 1%R.
  Proof.
    rewrite <- (st_space M N _ _ _ HS fr (Some z) (Z.of_nat t)).
    rewrite <- (objects_one M ML (coor_obj L N fr (Some z) (Z.of_nat t)) (n_objects L N) []).
    apply (shaped_ext M N one Wsp Dsp HS). intros zs Hl Ho. cbn [app length skipn]. rewrite (st_slice M N _ _ _ HS) by assumption. apply (st_density M N _ _ _ HS); assumption.
  Qed.

  Lemma coor_step q t s' kws s0 h o1 s1 : t < T_ -> plain_call kws -> calm s0 ->
    settled (fst (before t s')) (snd (before t s')) q -> recorded (fst (before t s')) (snd (before t s')) q ->
    let kw1 := sub_kwargs (in_ix (step_opts t (S s'))) kws in let kwf := sub_kwargs (in_ix (fwd_opts t (S s'))) kw1 in
    outcome (run q (VDict c0) kwf s0) (Ok o1, s1) ->
    E (run (enc_of t) (out_output o1) kwf s1) (fun y => match fst y with Ok o2 => after_fwd t (S s') q kws h o1 o2 (snd y) | Err _ => 0%R end) =
    sampled_step (fst (before t s')) (snd (before t s')) (fun ws z =>
      (/ step_mass (fst (before t s')) ws z * (int Wsp (fun w => step_mass t (upd t w ws) z * old_density t ws z * h (upd t w ws) z)))%R) (Ok o1, s1).
  Proof.
    intros Ht Hp Hcalm Hset Hrec kw1 kwf H1. assert (Hp1 : plain_call kw1) by apply plain_sub, Hp. assert (Hpf : plain_call kwf) by apply plain_sub, Hp1.
    destruct (Hset _ s0 Hpf Hcalm) as [_ Hs]. destruct (Hs _ _ H1) as (_ & (d & Ed & (f & Hf & Hfs) & Hcur) & _).
    assert (Ef : f = fr) by (destruct Hfs as [->| ->]; [reflexivity|apply (detach_id M ML)]). subst f.
    assert (Hixf : kwarg "ix" VNone kwf = apg_ix L (Z.of_nat t) (Z.of_nat (S s')) "forward") by (apply sub_ix; reflexivity).
    set (z := value_at (out_trace o1) (z_what (Z.of_nat s'))).
    assert (Hz : dget (z_what (Z.of_nat s')) d = Some (VTensor z)).
    { destruct (Hcur (z_what (Z.of_nat s'))) as (x & nd & Hx & Hnd & Hsm).
      - replace (Z.of_nat s') with (Z.of_nat (S s') - 1)%Z by lia. apply (before_reads N T_ Hpos fr Hfr t s'); [lia|]. destruct (Nat.eqb_spec t T_); [lia|reflexivity].
      - rewrite Hx. unfold z. rewrite (value_at_get _ _ _ Hnd). destruct Hsm as [->| ->]; [reflexivity|rewrite (detach_id M ML); reflexivity]. }
    assert (Henc : enc_of t = enc_coor L N) by (unfold enc_of; destruct (Nat.eqb_spec t T_); [lia|reflexivity]).
    assert (Hupd : updated t (S s') = z_where (Z.of_nat t) (Z.of_nat (S s'))) by (unfold Thm_GibbsRun.updated; destruct (Nat.eqb_spec t T_); [lia|reflexivity]).
    rewrite Ed, Henc.
    assert (Hkr : if Z.eqb (Z.of_nat (S s')) 0 then Some z = None else exists w, Some z = Some w /\ dget (z_what (Z.of_nat (S s') - 1)) d = Some (VTensor w)).
    { destruct (Z.eqb_spec (Z.of_nat (S s')) 0); [lia|]. exists z. split; [reflexivity|]. replace (Z.of_nat (S s') - 1)%Z with (Z.of_nat s') by lia. exact Hz. }
    match goal with |- E _ ?F = _ => destruct (coor_E HL Hlj M ML N same wmean T_ Hpos fr Hfr kwf s1 d fr t (Z.of_nat (S s')) (Some z) F Hpf Hixf Hf Hfr Ht Hkr) as (X & EX & HX); rewrite EX end.
    unfold sampled_step. cbn [fst]. rewrite digits_before by lia. fold z. set (ws := where_of (value_at (out_trace o1)) (fst (before t s')) (snd (before t s'))).
    rewrite <- (int_scale M ML), <- (int_scale M ML), <- (st_space M N _ _ _ HS fr (Some z) (Z.of_nat t)). apply (shaped_ext M N one Wsp Dsp HS). intros zs Hl Ho. cbn [app].
    destruct (HX zs Hl) as (HX1 & o2 & E2 & Htr2). cbn zeta in Htr2. destruct (X zs) as [r2 s2]. cbn [fst snd] in *. subst r2.
    rewrite <- Henc, <- Ed in HX1. rewrite <- Hupd in Htr2.
    set (nd := mkRV _ _ _ _ _ _) in Htr2.
    rewrite (step_core q t s' kws s0 h o1 s1 o2 s2 nd (Nat.lt_le_incl _ _ Ht) Hp Hcalm Hset H1 HX1 Htr2).
    set (v := value_at ((updated t (S s'), nd) :: out_trace o1)).
    assert (Hvt : v (z_where (Z.of_nat t) (Z.of_nat (S s'))) = coor_cat L N zs).
    { unfold v, value_at. rewrite Hupd. cbn [dget]. rewrite String.eqb_refl. reflexivity. }
    assert (Hvo : forall a, a <> z_where (Z.of_nat t) (Z.of_nat (S s')) -> v a = value_at (out_trace o1) a).
    { intros a Ha. unfold v, value_at. rewrite Hupd. cbn [dget]. destruct (String.eqb_spec a (z_where (Z.of_nat t) (Z.of_nat (S s')))); [contradiction|reflexivity]. }
    assert (Hpos' : forall i, i < T_ -> position_at (fst (before t s')) (snd (before t s')) i <> z_where (Z.of_nat t) (Z.of_nat (S s'))).
    { intros i Hi E. rewrite position_before in E by lia. apply z_where_inj in E. destruct E as [E1 E2]. assert (i = t) by lia. subst i.
      destruct (Nat.ltb_spec t t); lia. }
    assert (Ew : where_of v t (S s') = upd t (coor_cat L N zs) ws).
    { unfold where_of, ws. rewrite <- Hvt.
      replace (z_where (Z.of_nat t) (Z.of_nat (S s'))) with (position_at t (S s') (0 + t)) by (rewrite position_step by lia; cbn [plus]; rewrite Nat.leb_refl; reflexivity).
      rewrite (upd_map (fun i => value_at (out_trace o1) (position_at (fst (before t s')) (snd (before t s')) i)) (fun i => v (position_at t (S s') i)) t T_ 0 Ht); [reflexivity|].
      intros i Hi Hne. cbn [plus] in Hi, Hne. rewrite <- Hvo by (apply Hpos'; exact Hi). f_equal. rewrite position_step, position_before by lia.
      do 2 f_equal. destruct (Nat.leb_spec i t), (Nat.ltb_spec i t); lia || reflexivity. }
    assert (Ed' : v (digits_at T_ t (S s')) = z).
    { unfold digits_at. destruct (Nat.eqb_spec t T_); [lia|]. rewrite Hvo by discriminate. unfold z. do 2 f_equal. lia. }
    assert (Er : exp (lw M (reverse_logp N T_ fr v t (S s'))) = old_density t ws z).
    { unfold reverse_logp, old_density. destruct (Nat.eqb_spec t T_); [lia|]. cbn zeta. replace (Z.of_nat (S s') - 1)%Z with (Z.of_nat s') by lia.
      rewrite (Hvo (z_what (Z.of_nat s'))) by discriminate. rewrite (Hvo (z_where (Z.of_nat t) (Z.of_nat s'))) by (intros E; apply z_where_inj in E; lia). fold z.
      unfold ws, where_of. rewrite nth_map_seq by exact Ht. rewrite position_before by lia. destruct (Nat.ltb_spec t t); [lia|]. reflexivity. }
    rewrite Ew, Ed'. unfold step_ratio. fold v. rewrite Ew, Ed', Er.
    rewrite previous_before, (Hrec _ _ _ _ Hpf Hcalm H1), digits_before by lia. fold z ws.
    unfold nd. cbn [rv_logp]. fold (pm (coor_all L N fr (Some z) (Z.of_nat t) zs) (coor_cat L N zs)).
    rewrite (st_density M N _ _ _ HS) by assumption. pose proof (objects_mass_pos M (coor_obj L N fr (Some z) (Z.of_nat t)) zs []). pose proof (step_mass_pos (fst (before t s')) ws z).
    field. lra.
  Qed.

  Lemma digit_step q s' kws s0 h o1 s1 : plain_call kws -> calm s0 ->
    settled (fst (before T_ s')) (snd (before T_ s')) q -> recorded (fst (before T_ s')) (snd (before T_ s')) q ->
    let kw1 := sub_kwargs (in_ix (step_opts T_ (S s'))) kws in let kwf := sub_kwargs (in_ix (fwd_opts T_ (S s'))) kw1 in
    outcome (run q (VDict c0) kwf s0) (Ok o1, s1) ->
    E (run (enc_of T_) (out_output o1) kwf s1) (fun y => match fst y with Ok o2 => after_fwd T_ (S s') q kws h o1 o2 (snd y) | Err _ => 0%R end) =
    sampled_step (fst (before T_ s')) (snd (before T_ s')) (fun ws z =>
      (/ step_mass (fst (before T_ s')) ws z * (int Dsp (fun z' => step_mass T_ ws z' * pm (digit_all L N fr ws) z * h ws z')))%R) (Ok o1, s1).
  Proof.
    intros Hp Hcalm Hset Hrec kw1 kwf H1. assert (Hp1 : plain_call kw1) by apply plain_sub, Hp. assert (Hpf : plain_call kwf) by apply plain_sub, Hp1.
    destruct (Hset _ s0 Hpf Hcalm) as [Hg Hs]. destruct (Hs _ _ H1) as (_ & (d & Ed & (f & Hf & Hfs) & Hcur) & _).
    pose proof (Hg _ H1) as Hgood. unfold Thm_GibbsRun.good in Hgood. cbn [fst snd] in Hgood. destruct Hgood as (_ & _ & _ & _ & Hcalm1).
    assert (Ef : f = fr) by (destruct Hfs as [->| ->]; [reflexivity|apply (detach_id M ML)]). subst f.
    assert (Hixf : kwarg "ix" VNone kwf = apg_ix L (Z.of_nat T_) (Z.of_nat (S s')) "forward") by (apply sub_ix; reflexivity).
    set (z := value_at (out_trace o1) (z_what (Z.of_nat s'))).
    set (ws := where_of (value_at (out_trace o1)) (fst (before T_ s')) (snd (before T_ s'))).
    assert (Ews : ws = map (fun i => value_at (out_trace o1) (z_where (Z.of_nat i) (Z.of_nat (S s')))) (seq 0 T_)).
    { apply map_ext_in. intros i Hi. apply in_seq in Hi. rewrite position_before by lia. destruct (Nat.ltb_spec i T_); [reflexivity|lia]. }
    assert (Hws : Forall2 (fun k x => dget k d = Some (VTensor x)) (map (fun i => z_where (Z.of_nat i) (Z.of_nat (S s'))) (seq 0 T_)) ws).
    { rewrite Ews. assert (G : forall l, (forall i, In i l -> i < T_) -> Forall2 (fun k x => dget k d = Some (VTensor x)) (map (fun i => z_where (Z.of_nat i) (Z.of_nat (S s'))) l)
        (map (fun i => value_at (out_trace o1) (z_where (Z.of_nat i) (Z.of_nat (S s')))) l)).
      { induction l as [|i l IH]; intros Hl; [constructor|]. cbn [map]. constructor; [|apply IH; intros j Hj; apply Hl; right; exact Hj].
        destruct (Hcur (z_where (Z.of_nat i) (Z.of_nat (S s')))) as (x & nd & Hx & Hnd & Hsm).
        - apply (before_reads N T_ Hpos fr Hfr T_ s'); [lia|]. rewrite Nat.eqb_refl. exists i. split; [apply Hl; left; reflexivity|reflexivity].
        - rewrite (value_at_get _ _ _ Hnd). destruct Hsm as [->| ->]; [exact Hx|rewrite (detach_id M ML) in Hx; exact Hx]. }
      apply G. intros i Hi. apply in_seq in Hi. lia. }
    assert (Henc : enc_of T_ = enc_digit L N) by (unfold enc_of; rewrite Nat.eqb_refl; reflexivity).
    assert (Hupd : updated T_ (S s') = z_what (Z.of_nat (S s'))) by (unfold Thm_GibbsRun.updated; rewrite Nat.eqb_refl; reflexivity).
    rewrite Ed, Henc.
    match goal with |- E _ ?F = _ => destruct (digit_E HL Hlj M ML N same wmean one Wsp Dsp HS T_ Hpos fr Hfr kwf s1 d fr (Z.of_nat T_) (Z.of_nat (S s')) ws F Hpf Hixf Hf Hfr (proj1 Hcalm1 2) Hws) as (X & EX & HX); rewrite EX end.
    unfold sampled_step. cbn [fst]. rewrite digits_before by lia. fold z ws.
    rewrite <- (int_scale M ML), <- (int_scale M ML). apply (int_ext M ML). intros z'.
    destruct (HX z') as (HX1 & o2 & E2 & Htr2). destruct (X z') as [r2 s2]. cbn [fst snd] in *. subst r2.
    rewrite <- Henc, <- Ed in HX1. rewrite <- Hupd in Htr2.
    set (nd := mkRV _ _ _ _ _ _) in Htr2.
    rewrite (step_core q T_ s' kws s0 h o1 s1 o2 s2 nd (le_n _) Hp Hcalm Hset H1 HX1 Htr2).
    set (v := value_at ((updated T_ (S s'), nd) :: out_trace o1)).
    assert (Hvt : v (z_what (Z.of_nat (S s'))) = z').
    { unfold v, value_at. rewrite Hupd. cbn [dget]. rewrite String.eqb_refl. reflexivity. }
    assert (Hvo : forall a, a <> z_what (Z.of_nat (S s')) -> v a = value_at (out_trace o1) a).
    { intros a Ha. unfold v, value_at. rewrite Hupd. cbn [dget]. destruct (String.eqb_spec a (z_what (Z.of_nat (S s')))); [contradiction|reflexivity]. }
    assert (Ew' : map (fun i => v (z_where (Z.of_nat i) (Z.of_nat (S s')))) (seq 0 T_) = ws).
    { rewrite Ews. apply map_ext. intros i. apply Hvo. discriminate. }
    assert (Ew : where_of v T_ (S s') = ws).
    { rewrite <- Ew'. apply map_ext_in. intros i Hi. apply in_seq in Hi. rewrite position_step by lia. destruct (Nat.leb_spec i T_); [reflexivity|lia]. }
    assert (Ed' : v (digits_at T_ T_ (S s')) = z') by (unfold digits_at; rewrite Nat.eqb_refl; exact Hvt).
    assert (Er : exp (lw M (reverse_logp N T_ fr v T_ (S s'))) = pm (digit_all L N fr ws) z).
    { unfold reverse_logp. rewrite Nat.eqb_refl, Ew'. replace (Z.of_nat (S s') - 1)%Z with (Z.of_nat s') by lia.
      rewrite Hvo by (intros E; apply z_what_inj in E; lia). reflexivity. }
    rewrite Ew, Ed'. unfold step_ratio. fold v. rewrite Ew, Ed', Er.
    rewrite previous_before, (Hrec _ _ _ _ Hpf Hcalm H1), digits_before by lia. fold z ws.
    unfold nd. cbn [rv_logp]. fold (pm (digit_all L N fr ws) z').
    pose proof (pm_pos M (digit_all L N fr ws) z'). pose proof (step_mass_pos (fst (before T_ s')) ws z).
    field. lra.
  Qed.

  (** A step keeps proper weighting ... *)
  Lemma step_proper q t s' : t <= T_ -> settled (fst (before t s')) (snd (before t s')) q -> recorded (fst (before t s')) (snd (before t s')) q ->
    PW (fst (before t s')) (snd (before t s')) q -> PW t (S s') (gibbs_step L N wmean node_sum T_ (S s') t q).
  Proof.
    intros Ht Hset Hrec Hq kws s0 h Hp Hcalm. rewrite (step_E q t s' kws s0 h Hp Hcalm Hset). cbn zeta. set (kwf := sub_kwargs (in_ix (fwd_opts t (S s'))) _).
    assert (Hpf : plain_call kwf) by apply plain_sub, plain_sub, Hp.
    destruct (Nat.eq_dec t T_) as [->|Hne].
    - rewrite (E_ext_out M ML _ _ (sampled_step (fst (before T_ s')) (snd (before T_ s')) (fun ws z =>
        (/ step_mass (fst (before T_ s')) ws z * (int Dsp (fun z' => step_mass T_ ws z' * pm (digit_all L N fr ws) z * h ws z')))%R))).
      2:{ intros [[o1|e] s1] H1; [|reflexivity]. cbn [fst snd]. apply (digit_step q s' kws s0 h o1 s1); assumption. }
      rewrite (Hq _ _ _ Hpf Hcalm). apply positions_ext. intros ws _.
      rewrite (int_ext M ML _ _ (fun z => int Dsp (fun z' => (step_mass T_ ws z' * h ws z' * pm (digit_all L N fr ws) z)%R))).
      2:{ intros z. pose proof (step_mass_pos (fst (before T_ s')) ws z). rewrite <- Rmult_assoc, Rinv_r, Rmult_1_l by lra. apply (int_ext M ML). intros z'. ring. }
      rewrite (int_swap M ML). apply (int_ext M ML). intros z'. rewrite (int_scale M ML).
      rewrite <- (st_what M N _ _ _ HS fr ws). unfold pmass. rewrite (normalised M ML). ring.
    - rewrite (E_ext_out M ML _ _ (sampled_step (fst (before t s')) (snd (before t s')) (fun ws z =>
        (/ step_mass (fst (before t s')) ws z * (int Wsp (fun w => step_mass t (upd t w ws) z * old_density t ws z * h (upd t w ws) z)))%R))).
      2:{ intros [[o1|e] s1] H1; [|reflexivity]. cbn [fst snd]. apply (coor_step q t s' kws s0 h o1 s1); try assumption. lia. }
      rewrite (Hq _ _ _ Hpf Hcalm).
      rewrite (positions_ext _ _ (fun ws => int Wsp (fun w => (fun ws' w0 => int Dsp (fun z => (step_mass t ws' z * h ws' z *
         pm (coor_all L N fr (Some z) (Z.of_nat t) (map (coor_slice L N w0) (seq 0 (n_objects L N)))) w0)%R)) (upd t w ws) (nth t ws (tzero L))))).
      + rewrite (positions_swap t (fun ws' w0 => int Dsp (fun z => (step_mass t ws' z * h ws' z *
         pm (coor_all L N fr (Some z) (Z.of_nat t) (map (coor_slice L N w0) (seq 0 (n_objects L N)))) w0)%R)) (tzero L) T_ ltac:(lia)).
        apply positions_ext. intros ws _. rewrite (int_swap M ML). apply (int_ext M ML). intros z. rewrite (int_scale M ML), old_one. ring.
      + intros ws _. rewrite (int_swap M ML). apply (int_ext M ML). intros z. pose proof (step_mass_pos (fst (before t s')) ws z).
        rewrite <- Rmult_assoc, Rinv_r, Rmult_1_l by lra. apply (int_ext M ML). intros w. unfold old_density. ring.
  Qed.
  (** ... and records the densities it was weighted with. *)
  Lemma recorded_weight t s o (v : string -> T L) :
    map (density_at (out_trace o)) (posterior_addresses T_ t s) = joint_logp N T_ fr v t s ->
    (forall a, In a (posterior_addresses T_ t s) -> a <> "recon" -> value_at (out_trace o) a = v a) ->
    masses (map (density_at (out_trace o)) (posterior_addresses T_ t s)) = step_mass t (where_of (value_at (out_trace o)) t s) (value_at (out_trace o) (digits_at T_ t s)).
  Proof.
    intros -> Hv. rewrite step_masses.
    assert (Ew : where_of v t s = where_of (value_at (out_trace o)) t s).
    { apply map_ext_in. intros i Hi. apply in_seq in Hi. symmetry. apply Hv; [|unfold position_at, current_where; destruct (_ <=? _)%Z; discriminate].
      apply (posterior_in N T_ Hpos fr Hfr). left. exists i. split; [lia|reflexivity]. }
    rewrite Ew, <- (Hv (digits_at T_ t s)); [reflexivity| |discriminate]. apply (posterior_in N T_ Hpos fr Hfr). auto.
  Qed.
  Lemma step_recorded q t s' : t <= T_ -> settled (fst (before t s')) (snd (before t s')) q ->
    recorded t (S s') (gibbs_step L N wmean node_sum T_ (S s') t q).
  Proof.
    intros Ht Hset kws s0 o st' Hp Hcalm H.
    pose proof (fun kws Hp => proj1 (Hset kws s0 Hp Hcalm)) as Hg. pose proof (fun kws o1 s1 Hp => proj2 (Hset kws s0 Hp Hcalm) o1 s1) as Hs.
    destruct (step_synced HL N same wmean node_sum rs Hdet T_ Hpos c0 fr Hc0 Hfr q t s' kws s0 o _ Ht Hp Hcalm Hg Hs H) as (_ & kwq & prev & st1 & _ & _ & _ & _ & Hw).
    destruct Hw as (px & F & _ & _ & _ & Hd & Hval & _). eapply recorded_weight; [exact Hd|exact Hval].
  Qed.

  (** *** all sweeps *)
  Notation gsteps := (sweep_steps L N wmean node_sum rs T_).
  Notation gsweeps := (sweeps L N wmean node_sum rs T_).
  Notation gstep := (gibbs_step L N wmean node_sum T_).
  Definition proper (t s : nat) (q : inf L) : Prop := recorded t s q /\ PW t s q.
  Lemma steps_settled S_ s n : s < S_ -> n <= T_ -> settled (fst (before n s)) (snd (before n s)) (gsteps (S s) n (gsweeps S_ s)).
  Proof.
    intros Hs Hn kws s0 Hp Hcalm. split.
    - apply (steps_ready HL HT Hlj N same wmean node_sum rs idle_addresses Hdet T_ Hpos c0 fr Hc0 Hfr); assumption.
    - intros o s' H. eapply (steps_synced HL HT Hlj N same wmean node_sum rs idle_addresses Hdet T_ Hpos c0 fr Hc0 Hfr Hsame idle_observed S_ s Hs); [|exact Hn|exact Hp|exact Hcalm|exact H].
      intros kws3 s3 o3 s4 Hp3 Hc3 H3. eapply (sweeps_synced HL HT Hlj N same wmean node_sum rs idle_addresses Hdet T_ Hpos c0 fr Hc0 Hfr Hsame idle_observed S_ s ltac:(lia)); eassumption.
  Qed.
  Lemma step_settled S_ s t : s < S_ -> t <= T_ -> settled t (S s) (gstep (S s) t (gsteps (S s) t (gsweeps S_ s))).
  Proof.
    intros Hs Ht kws s0 Hp Hcalm. split.
    - apply (step_ready HL HT Hlj N same wmean node_sum rs idle_addresses Hdet T_ Hpos c0 fr Hc0 Hfr); assumption.
    - intros o s' H. exact (proj1 (step_weighed HL HT Hlj N same wmean node_sum rs idle_addresses Hdet T_ Hpos c0 fr Hc0 Hfr Hsame idle_observed S_ s t kws s0 o s' Hs Ht Hp Hcalm H)).
  Qed.
  Lemma initial_settled : settled T_ 0 (initial_is L N wmean T_).
  Proof.
    intros kws s0 Hp Hcalm. split.
    - eapply always_impl; [apply (initial_good HL HT Hlj N same wmean node_sum Hdet T_ Hpos c0 fr Hc0 Hfr kws s0 Hp Hcalm)|].
      intros [r s1] (o1 & E & H1 & _). unfold Thm_GibbsRun.good. rewrite E. exact H1.
    - intros o s' H. exact (proj1 (initial_synced HL N same wmean (fun x => x) T_ Hpos c0 fr Hc0 Hfr kws s0 o s' Hp Hcalm H)).
  Qed.
  Lemma initial_proper : proper T_ 0 (initial_is L N wmean T_).
  Proof.
    split.
    - intros kws s0 o s' Hp Hcalm H. destruct (proj2 (initial_synced HL N same wmean (fun x => x) T_ Hpos c0 fr Hc0 Hfr kws s0 o s' Hp Hcalm H)) as (px & l & _ & _ & _ & Hd & Hval & _).
      eapply recorded_weight; [exact Hd|exact Hval].
    - intros kws s0 h Hp Hcalm. rewrite (E_ext_out M ML _ _ (weighted_sample M T_ 0 h)).
      + rewrite (initial_E HL HT Hlj M ML N same wmean one Wsp Dsp HS T_ Hpos c0 fr Hc0 Hfr Hdet kws s0 h Hp Hcalm).
        apply positions_ext. intros ws Hl. apply (int_ext M ML). intros z. rewrite step_video by lia. reflexivity.
      + intros [[o|e] s1] _; [|reflexivity]. unfold sampled_step, weighted_sample. cbn [fst]. f_equal. f_equal.
        * apply map_ext_in. intros i Hi. apply in_seq in Hi. unfold position_at, current_where. destruct (Z.leb_spec (Z.of_nat i) (Z.of_nat T_)); [reflexivity|lia].
        * unfold digits_at. rewrite Nat.eqb_refl. reflexivity.
  Qed.
  Lemma resample_ok oid t s q : settled t s q -> proper t s q -> proper t s (resampled L rs oid q).
  Proof. intros Hs [H1 H2]. split; [apply resample_recorded|apply resample_proper]; assumption. Qed.
  Lemma steps_proper S_ s : s < S_ -> proper T_ s (gsweeps S_ s) ->
    forall n, n <= T_ -> proper (fst (before n s)) (snd (before n s)) (gsteps (S s) n (gsweeps S_ s)).
  Proof.
    intros Hs Hq. induction n as [|n IH]; intros Hn; [exact Hq|]. cbn [sweep_steps Thm_GibbsRun.before fst snd]. apply resample_ok; [apply step_settled; lia|].
    destruct (IH ltac:(lia)) as [H1 H2]. split; [apply step_recorded|apply step_proper]; try assumption; try lia; apply steps_settled; lia.
  Qed.
  Lemma sweeps_proper S_ : forall n, n <= S_ -> proper T_ n (gsweeps S_ n).
  Proof.
    induction n as [|n IH]; intros Hn; cbn [sweeps].
    - destruct (Nat.ltb 0 S_); [apply resample_ok; [apply initial_settled|]|]; apply initial_proper.
    - assert (H : proper T_ (S n) (gstep (S n) T_ (gsteps (S n) T_ (gsweeps S_ n)))).
      { destruct (steps_proper S_ n ltac:(lia) (IH ltac:(lia)) T_ (le_n _)) as [H1 H2].
        split; [apply step_recorded|apply step_proper]; try assumption; try lia; apply steps_settled; lia. }
      destruct (Nat.eqb (S n) S_); [exact H|]. apply resample_ok; [apply step_settled; lia|exact H].
  Qed.
  Theorem gibbs_proper S_ kws s0 h : plain_call kws -> calm s0 ->
    E (run (gibbs_sweeps L N wmean node_sum rs S_ T_) (VDict c0) kws s0) (weighted_sample M T_ S_ h) =
    over_positions M Wsp T_ (fun ws => int Dsp (fun z => (video_mass M N fr ws z * h ws z)%R)).
  Proof.
    intros Hp Hcalm. destruct (sweeps_proper S_ S_ (le_n _)) as [_ H]. unfold gibbs_sweeps.
    rewrite (E_ext_out M ML _ _ (sampled_step T_ S_ h)).
    - rewrite (H _ _ h Hp Hcalm). apply positions_ext. intros ws Hl. apply (int_ext M ML). intros z. rewrite step_video by lia. reflexivity.
    - intros [[o|e] s1] _; [|reflexivity]. unfold sampled_step, weighted_sample. cbn [fst]. f_equal. f_equal.
      * apply map_ext_in. intros i Hi. apply in_seq in Hi. unfold position_at, current_where. destruct (Z.leb_spec (Z.of_nat i) (Z.of_nat T_)); [reflexivity|lia].
      * unfold digits_at. rewrite Nat.eqb_refl. reflexivity.
  Qed.
End SweepsProper.
