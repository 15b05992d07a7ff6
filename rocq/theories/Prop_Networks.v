(** C73: the model of the annealing experiment before training, and its kernels at any parameters. *)
From Coq Require Import Reals Lra Lia.
From Verif Require Import Networks SpecAnnealing Prop_Tempering.
Close Scope R_scope.
Open Scope nat_scope.

(** ** Specification *)
(** A point of the plane as the vector a network is given. *)
Definition point (v : R * R) : vec := fun i => match i with 0 => fst v | _ => snd v end.
(** The kernel moves a point by centred normal noise with variance [s] in both coordinates. *)
Definition random_walk (k : cmvn) (s : R) : Prop :=
  forall x : vec, exists mu cov, cmvn_moments k x = Ok (mu, cov) /\
    (forall i, i < 2 -> mu i = x i) /\ (forall i j, i < 2 -> j < 2 -> cov i j = if i =? j then s else 0%R).
(** The log-density of a step of the kernel. *)
Definition kernel_logp (k : cmvn) (x y : R * R) : R :=
  match cmvn_moments k (point x) with
  | Ok (mu, cov) => normal2 (mu 0) (mu 1) (cov 0 0) (cov 1 1) y
  | Err _ => 0%R
  end.

(** ** Proofs *)
Lemma softplus_log_expm1 c : (0 < c)%R -> softplus (ln (exp c - 1)) = c.
Proof.
  intros H. unfold softplus. assert (H1 : (1 < exp c)%R) by (rewrite <- exp_0; apply exp_increasing; exact H).
  rewrite exp_ln by lra. replace (1 + (exp c - 1))%R with (exp c) by ring. apply ln_exp.
Qed.
Lemma softplus_pos x : (0 < softplus x)%R.
Proof. unfold softplus. rewrite <- ln_1. apply ln_increasing; [lra|]. pose proof (exp_pos x). lra. Qed.
Lemma total_zero n f : (forall i, i < n -> f i = 0%R) -> total n f = 0%R.
Proof.
  intros H. unfold total. assert (Hall : forall i, In i (seq 0 n) -> f i = 0%R) by (intros i Hi; apply in_seq in Hi; apply H; lia).
  clear H. revert Hall. generalize (seq 0 n). intros l Hl. induction l as [|i l IH]; [reflexivity|]. cbn.
  fold (rsum (map f l)). rewrite (Hl i (or_introl eq_refl)), IH by (intros j Hj; apply Hl; right; exact Hj). lra.
Qed.
Lemma linear_reset l off x j : linear (lin_reset l off) x j = off j.
Proof. unfold linear. cbn [lin_reset lin_in lin_w lin_b]. rewrite total_zero by (intros; ring). lra. Qed.

Lemma initial_moments from to loc cov net rep x : dim_out net = 2 ->
  exists mu c, cmvn_moments (new_cmvn from to loc cov net rep) x = Ok (mu, c) /\
    (forall i, i < 2 -> mu i = x i) /\ (forall i j, i < 2 -> j < 2 -> c i j = if i =? j then softplus (ln (exp (cov i i) - 1)) else 0%R).
Proof.
  intros Hd. unfold cmvn_moments, new_cmvn. cbn [k_net mlp_initialize dim_out]. rewrite Hd. cbn [Nat.eqb Nat.mul Nat.add]. eexists. eexists. split; [reflexivity|]. split.
  - intros i Hi. unfold mlp_forward. cbn [mlp_initialize map_joint map_mu map_cov dim_out]. rewrite Hd. destruct (Nat.ltb_spec i 2); [|lia].
    rewrite linear_reset. lra.
  - intros i j Hi Hj. destruct (i =? j); [|reflexivity]. f_equal. unfold mlp_forward. cbn [mlp_initialize map_joint map_mu map_cov dim_out]. rewrite Hd.
    destruct (Nat.ltb_spec (S (S i)) 2); [lia|]. rewrite linear_reset. cbn [Nat.sub]. rewrite Nat.sub_0_r. reflexivity.
Qed.

(** ** The property *)
(** A kernel that was just created, whatever its hidden layer: with [loc] zero and a diagonal [cov] it
    is centred at the point it starts from, with covariance [cov]. *)
Theorem C73_initial_kernel : forall from to loc cov net rep (x : vec),
  dim_out net = 2 -> (forall i, i < 2 -> loc i = 0%R) ->
  (forall i, i < 2 -> (0 < cov i i)%R) -> (forall i j, i < 2 -> j < 2 -> i <> j -> cov i j = 0%R) ->
  let k := new_cmvn from to loc cov net rep in
  ext_from k = from /\ ext_to k = to /\
  exists mu c, cmvn_moments k x = Ok (mu, c) /\
    (forall i, i < 2 -> mu i = (x i + loc i)%R) /\ (forall i j, i < 2 -> j < 2 -> c i j = cov i j).
Proof.
  intros from to loc cov net rep x Hd Hl Hp Hz k. split; [reflexivity|]. split; [reflexivity|].
  destruct (initial_moments from to loc cov net rep x Hd) as (mu & c & E & Hmu & Hc). exists mu, c. split; [exact E|]. split.
  - intros i Hi. rewrite Hmu, Hl by exact Hi. lra.
  - intros i j Hi Hj. rewrite Hc by assumption. destruct (Nat.eqb_spec i j) as [<-|Hne]; [apply softplus_log_expm1, Hp, Hi|symmetry; apply Hz; assumption].
Qed.
Print Assumptions C73_initial_kernel.

(** The location offset and the correlations a caller asks for are dropped. *)
Theorem C73_arguments_refuted : exists from to (loc : vec) (cov : nat -> vec) net rep,
  dim_out net = 2 /\
  (* [cov] is symmetric and positive definite *)
  cov 0 1 = cov 1 0 /\ (0 < cov 0%nat 0%nat)%R /\ (0 < cov 0%nat 0%nat * cov 1%nat 1%nat - cov 0%nat 1%nat * cov 1%nat 0%nat)%R /\
  forall x, exists mu c, cmvn_moments (new_cmvn from to loc cov net rep) x = Ok (mu, c) /\
    mu 0 <> (x 0%nat + loc 0%nat)%R /\ c 0 1 <> cov 0 1.
Proof.
  exists "g0"%string, "g1"%string, (fun _ => 1%R), (fun i j => if i =? j then 2%R else 1%R), (mkMlp 2 (mkLin 2 (fun _ _ => 0%R) (fun _ => 0%R)) (mkLin 50 (fun _ _ => 0%R) (fun _ => 0%R)) (mkLin 50 (fun _ _ => 0%R) (fun _ => 0%R))), true.
  split; [reflexivity|]. split; [reflexivity|]. split; [cbn; lra|]. split; [cbn; lra|]. intros x.
  match goal with |- context [new_cmvn ?a ?b ?l ?c ?n ?r] => destruct (initial_moments a b l c n r x eq_refl) as (mu & c' & E & Hmu & Hc) end.
  exists mu, c'. split; [exact E|]. rewrite (Hmu 0) by lia. rewrite (Hc 0 1) by lia. cbn. split; lra.
Qed.
Print Assumptions C73_arguments_refuted.

(** At any parameters whatever: the moments exist and the covariance is diagonal and positive
    definite, so that the kernel is a normal distribution on the plane. *)
Theorem C73_always_normal : forall k (x : vec), dim_out (k_net k) = 2 ->
  exists mu c, cmvn_moments k x = Ok (mu, c) /\
    forall v0 v1, (v0 <> 0 \/ v1 <> 0)%R -> c 0 1 = c 1 0 /\ (0 < v0 * (c 0%nat 0%nat * v0 + c 0%nat 1%nat * v1) + v1 * (c 1%nat 0%nat * v0 + c 1%nat 1%nat * v1))%R.
Proof.
  intros k x Hd. unfold cmvn_moments. rewrite Hd. cbn [Nat.eqb Nat.mul Nat.add]. eexists. eexists. split; [reflexivity|].
  intros v0 v1 Hv. cbn [Nat.eqb]. split; [reflexivity|].
  match goal with |- (0 < v0 * (softplus ?a * v0 + _) + v1 * (_ + softplus ?b * v1))%R => pose proof (softplus_pos a); pose proof (softplus_pos b); set (A := softplus a) in *; set (C := softplus b) in * end.
  assert (Hs0 : (0 <= v0 * v0)%R) by (apply Rle_0_sqr). assert (Hs1 : (0 <= v1 * v1)%R) by (apply Rle_0_sqr).
  destruct Hv as [Hv|Hv]; [assert (0 < v0 * v0)%R by (apply Rlt_0_sqr; exact Hv)|assert (0 < v1 * v1)%R by (apply Rlt_0_sqr; exact Hv)]; nra.
Qed.
Print Assumptions C73_always_normal.

Lemma gname_z_nat k : gname_z (Z.of_nat k) = gname k.
Proof. unfold gname_z. destruct (Z.ltb_spec (Z.of_nat k) 0); [lia|]. rewrite Nat2Z.id. reflexivity. Qed.
Lemma paper_walk from to s rep net : dim_out net = 2 -> (0 < s)%R -> random_walk (paper_kernel from to s rep net) (s * s).
Proof.
  intros Hd Hs x. destruct (initial_moments (gname from) (gname to) (fun _ => 0%R) (eye2 (s * s)) net rep x Hd) as (mu & c & E & Hmu & Hc).
  exists mu, c. split; [exact E|]. split; [exact Hmu|]. intros i j Hi Hj. rewrite Hc by assumption. unfold eye2. rewrite Nat.eqb_refl.
  destruct (i =? j); [|reflexivity]. apply softplus_log_expm1. nra.
Qed.

(** paper_model(n): [n] targets g0, ..., g(n-1), the first N(0, 25 I), the last a mixture of eight
    normal densities with variance 1/2 around a circle of radius 10 (summed, not averaged), geometric
    between them with increasing temperatures; [n - 1] forward kernels from g(k) to g(k+1) and as many
    reverse kernels back, all of them standard random walks before training. *)
Theorem C73_paper_model : forall fwd rev n, 2 <= n ->
  (forall i, dim_out (fwd i) = 2) -> (forall i, dim_out (rev i) = 2) ->
  exists targets fs rs, paper_model fwd rev (Z.of_nat n) = Ok (targets, fs, rs) /\
    length targets = n /\ length fs = n - 1 /\ length rs = n - 1 /\
    (exists g0 gK (beta : nat -> R), nth_error targets 0 = Some g0 /\ nth_error targets (n - 1) = Some gK /\
      d_name g0 = gname 0 /\ d_name gK = gname (n - 1) /\
      (forall v, log_prob g0 v = normal2 0 0 25 25 v) /\
      (exists locs, length locs = 8 /\ NoDup locs /\ (forall l, In l locs -> (fst l * fst l + snd l * snd l = 10 * 10)%R) /\
         forall v, exp (log_prob gK v) = rsum (map (fun l => exp (normal2 (fst l) (snd l) (1 / 2) (1 / 2) v)) locs)) /\
      (forall k, 0 < k < n - 1 -> exists g, nth_error targets k = Some g /\ d_name g = gname k /\
         forall v, log_prob g v = ((1 - beta k) * log_prob g0 v + beta k * log_prob gK v)%R) /\
      (forall k, 0 < k < n - 1 -> (0 < beta k < 1)%R) /\ (forall j k, 0 < j < k -> k < n - 1 -> (beta j < beta k)%R)) /\
    (forall k, k < n - 1 -> exists f r, nth_error fs k = Some f /\ nth_error rs k = Some r /\
       ext_from f = gname k /\ ext_to f = gname (S k) /\ ext_from r = gname (S k) /\ ext_to r = gname k /\
       k_reparameterized f = true /\ k_reparameterized r = false /\ random_walk f 1 /\ random_walk r 1).
Proof.
  intros fwd rev n Hn Hf Hr. unfold paper_model, paper_gK.
  destruct (C51_ring 10 8 ltac:(lra) ltac:(lia)) as (locs & El & Hlen & Hnd & Hc). rewrite El. cbn [rmap rbind].
  set (gK := Dens _ _).
  destruct (C44_tempered_path _ paper_g0 gK n Hn) as (path & beta & Ep & Hpl & H0 & HK & Hmid & Hb & Hinc). rewrite Ep. cbn [rbind].
  eexists. eexists. eexists. split; [reflexivity|]. rewrite !map_length, !seq_length.
  replace (Z.to_nat (Z.of_nat n - 1)) with (n - 1) by lia.
  split; [exact Hpl|]. split; [reflexivity|]. split; [reflexivity|]. split.
  - exists paper_g0, gK, beta. split; [exact H0|]. split; [exact HK|]. split; [reflexivity|]. split.
    { cbn [gK d_name]. replace (Z.of_nat n - 1)%Z with (Z.of_nat (n - 1)) by lia. apply gname_z_nat. }
    split; [reflexivity|]. split.
    { exists locs. split; [exact Hlen|]. split; [exact Hnd|]. split; [intros [a b] Hl; apply Hc, Hl|].
      intros v. cbn [gK log_prob]. destruct (C51_mixture _ (map (fun l => normal2 (fst l) (snd l) (1 / 2) (1 / 2)) locs) v) as (ld & E & Hld).
      { destruct locs; [discriminate|discriminate]. }
      rewrite E, Hld, map_map. reflexivity. }
    split; [exact Hmid|]. split; [exact Hb|exact Hinc].
  - intros k Hk. rewrite !nth_error_map. assert (E : nth_error (seq 0 (n - 1)) k = Some k).
    { erewrite nth_error_nth' with (d := 0) by (rewrite seq_length; exact Hk). rewrite seq_nth by exact Hk. reflexivity. }
    rewrite E. cbn [option_map]. eexists. eexists. split; [reflexivity|]. split; [reflexivity|]. cbn [paper_kernel new_cmvn ext_from ext_to k_reparameterized].
    rewrite Nat.add_1_r. repeat (split; [reflexivity|]).
    assert (Hw : forall from to rep net, dim_out net = 2 -> random_walk (paper_kernel from to 1 rep net) 1).
    { intros from to rep net Hd. pose proof (paper_walk from to 1 rep net Hd ltac:(lra)) as H. rewrite Rmult_1_r in H. exact H. }
    split; apply Hw; auto.
Qed.
Print Assumptions C73_paper_model.

Lemma random_walk_symmetric f r x y : random_walk f 1 -> random_walk r 1 -> kernel_logp f x y = kernel_logp r y x.
Proof.
  intros Hf Hr. unfold kernel_logp. destruct (Hf (point x)) as (mu & c & -> & Hmu & Hc). destruct (Hr (point y)) as (mu' & c' & -> & Hmu' & Hc').
  rewrite (Hmu 0), (Hmu 1), (Hc 0 0), (Hc 1 1), (Hmu' 0), (Hmu' 1), (Hc' 0 0), (Hc' 1 1) by lia. cbn. unfold normal2. lra.
Qed.
(** Before training the importance weight of a chain [z 0, ..., z (n - 1)] is the ratio of the last
    target at its end to the first at its start: the kernels cancel. *)
Theorem C73_untrained_weight : forall fwd rev n targets fs rs g0 gK (z : nat -> R * R), 2 <= n ->
  (forall i, dim_out (fwd i) = 2) -> (forall i, dim_out (rev i) = 2) ->
  paper_model fwd rev (Z.of_nat n) = Ok (targets, fs, rs) ->
  nth_error targets 0 = Some g0 -> nth_error targets (n - 1) = Some gK ->
  (log_prob gK (z (n - 1)%nat)
   + sum_below (n - 1) (fun k => match nth_error rs k with Some r => kernel_logp r (z (S k)) (z k) | None => 0%R end)
   - log_prob g0 (z 0%nat)
   - sum_below (n - 1) (fun k => match nth_error fs k with Some f => kernel_logp f (z k) (z (S k)) | None => 0%R end)
   = log_prob gK (z (n - 1)%nat) - log_prob g0 (z 0%nat))%R.
Proof.
  intros fwd rev n targets fs rs g0 gK z Hn Hf Hr E _ _.
  destruct (C73_paper_model fwd rev n Hn Hf Hr) as (t' & f' & r' & E' & _ & _ & _ & _ & Hk). rewrite E in E'. injection E' as <- <- <-.
  assert (H : forall m, m <= n - 1 ->
    sum_below m (fun k => match nth_error rs k with Some r => kernel_logp r (z (S k)) (z k) | None => 0%R end)
    = sum_below m (fun k => match nth_error fs k with Some f => kernel_logp f (z k) (z (S k)) | None => 0%R end)).
  { induction m as [|m IH]; intros Hm; [reflexivity|]. cbn [sum_below]. rewrite IH by lia. f_equal.
    destruct (Hk m ltac:(lia)) as (f & r & -> & -> & _ & _ & _ & _ & _ & _ & Hwf & Hwr). symmetry. apply random_walk_symmetric; assumption. }
  rewrite H by lia. lra.
Qed.
Print Assumptions C73_untrained_weight.

(** the model of the paper, eight targets, with one of its networks *)
Definition mlp_ex : resmlpj := mkMlp 2 (mkLin 2 (fun j i => INR (j + i)) (fun _ => 1%R)) (mkLin 50 (fun _ _ => 1%R) (fun _ => 1%R)) (mkLin 50 (fun _ _ => 1%R) (fun _ => 2%R)).
Example C73_case : exists targets fs rs f, paper_model (fun _ => mlp_ex) (fun _ => mlp_ex) 8 = Ok (targets, fs, rs) /\
  length targets = 8 /\ nth_error fs 3 = Some f /\ ext_from f = "g3"%string /\ ext_to f = "g4"%string /\
  (* the untrained network is not one: *)
  mlp_forward mlp_ex (fun _ => 1%R) 0 <> 1%R /\ mlp_forward (k_net f) (fun _ => 1%R) 0 = 1%R.
Proof.
  destruct (C73_paper_model (fun _ => mlp_ex) (fun _ => mlp_ex) 8 ltac:(lia) (fun _ => eq_refl) (fun _ => eq_refl)) as (t & fs & rs & E & Hl & _ & _ & _ & Hk).
  destruct (Hk 3 ltac:(lia)) as (f & r & Hf & _ & H1 & H2 & _ & _ & _ & _ & Hw & _). exists t, fs, rs, f.
  split; [exact E|]. split; [exact Hl|]. split; [exact Hf|]. split; [exact H1|]. split; [exact H2|]. split.
  - unfold mlp_forward. cbn [mlp_ex dim_out Nat.ltb Nat.leb map_joint map_mu]. set (y := relu _).
    unfold linear at 1. cbn [lin_in lin_w lin_b].
    assert (Hpos : (0 <= total 50 (fun i => 1 * y i))%R).
    { unfold total. generalize (seq 0 50). intros l. induction l as [|a l IH]; cbn; [lra|]. fold (rsum (map (fun i => (1 * y i)%R) l)).
      assert (0 <= y a)%R by (unfold y, relu; apply Rmax_l). lra. }
    lra.
  - destruct (Hw (fun _ => 1%R)) as (mu & c & Em & Hmu & _). unfold cmvn_moments in Em. destruct (_ =? 4); [|discriminate]. injection Em as <- _.
    apply (Hmu 0). lia.
Qed.
