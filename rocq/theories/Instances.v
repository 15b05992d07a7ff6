(** Concrete instances of the torch/probtorch boundary, used by the non-vacuity examples. *)
From Verif Require Export Spec.

(** Integer scalars with a gradient component and a "is a torch.Tensor" flag; the
    distribution [d] has log-density -(v-d)^2. *)
Definition ZT : Type := bool * Z * Z.
Definition zten (v : Z) : ZT := (true, v, 1%Z).
Definition ZL : lib := {|
  T := ZT; D := Z;
  tzero := (false, 0, 0)%Z;
  tadd := fun a b => let '(ta, va, ga) := a in let '(tb, vb, gb) := b in (ta || tb, (va + vb)%Z, (ga + gb)%Z);
  tsub := fun a b => let '(ta, va, ga) := a in let '(tb, vb, gb) := b in (ta || tb, (va - vb)%Z, (ga - gb)%Z);
  detach := fun a => let '(ta, va, _) := a in (ta, va, 0%Z);
  is_tensor := fun a => let '(ta, _, _) := a in ta;
  to_tensor := fun a => let '(_, va, _) := a in (true, va, 0%Z);
  eq_zero := fun a => let '(_, va, _) := a in Ok (Z.eqb va 0);
  tensor_equal := fun a b => let '(_, va, _) := a in let '(_, vb, _) := b in Z.eqb va vb;
  bsum := fun _ _ a => a;
  logp := fun d a => let '(_, va, ga) := a in (true, (- ((va - d) * (va - d)))%Z, (-2 * (va - d) * ga)%Z);
  lj_ok := fun _ _ _ => true;
  order := fun l => rev l
|}.
Lemma ZL_laws : lib_laws ZL.
Proof.
  constructor; cbn.
  - intros [[ta va] ga] [[tb vb] gb]. rewrite orb_comm, Z.add_comm. f_equal. apply Z.add_comm.
  - intros [[ta va] ga] [[tb vb] gb] [[tc vc] gc]. rewrite orb_assoc, !Z.add_assoc. reflexivity.
  - intros [[ta va] ga]. destruct va, ga; reflexivity.
  - intros l. symmetry. apply Permutation_rev.
Qed.

(** a state in which nothing is conditioned and the resample hook is the default no-op *)
Definition st0 (L : lib) : st L := mkSt [] [] (fun d _ _ => Ok d) [].

(** walk a sampling tree with a given list of drawn values *)
Fixpoint walk {L : lib} {A} (t : stree L A) (ds : list (T L)) : option A :=
  match t, ds with
  | Leaf a, [] => Some a
  | Draw _ k, v :: ds' => walk (k v) ds'
  | _, _ => None
  end.
Lemma walk_outcome {L : lib} {A} (t : stree L A) ds a : walk t ds = Some a -> outcome t a.
Proof.
  revert ds. induction t as [x|d k IH]; intros [|v ds] H; cbn in H; try discriminate.
  - injection H as <-. constructor.
  - econstructor. eapply IH. exact H.
Qed.

(** a sampled node *)
Definition node (v : Z) : rv ZL :=
  mkRV (L := ZL) (Proper (L := ZL) 3%Z) (zten v) (logp ZL 3%Z (zten v)) SAMPLED true true.

(** a program with one latent and one observed variable:
    x ~ 3; observe y = 7 under 5; return {x: x} *)
Definition sig_model : sig := mkSig ["self"; "trace"; "c"] [] true.
Definition xy_model : pyval ZT -> dict (pyval ZT) -> model ZL := fun _ _ =>
  MVar (L := ZL) "x" 3%Z None true (fun x =>
  MVar (L := ZL) "y" 5%Z (Some (zten 7, None)) true (fun _ =>
  MRet (L := ZL) (VDict [("x", VTensor x)]))).
(** a kernel: z ~ 4; return {z: z} *)
Definition z_model : pyval ZT -> dict (pyval ZT) -> model ZL := fun _ _ =>
  MVar (L := ZL) "z" 4%Z None true (fun z => MRet (L := ZL) (VDict [("z", VTensor z)])).
(** a proposal with an auxiliary variable: a ~ 0; x ~ 1; return {x: x} *)
Definition ax_model : pyval ZT -> dict (pyval ZT) -> model ZL := fun _ _ =>
  MVar (L := ZL) "a" 0%Z None true (fun _ =>
  MVar (L := ZL) "x" 1%Z None true (fun x => MRet (L := ZL) (VDict [("x", VTensor x)]))).
Definition P_xy : inf ZL := IProg (L := ZL) 1 sig_model xy_model.
Definition P_z : inf ZL := IProg (L := ZL) 2 sig_model z_model.
Definition P_ax : inf ZL := IProg (L := ZL) 3 sig_model ax_model.
Definition opts0 : infopts ZL := mkOpts (L := ZL) default_loss None VNone false.
(** no program conditioned except object [i] under trace [t] *)
Definition st_cond (i : nat) (t : trace ZL) : st ZL := set_cond i (Some t) (st0 ZL).

(** the same, also collecting what was drawn *)
Fixpoint walkd {L : lib} {A} (t : stree L A) (vs : list (T L)) : option (list (draw_kind L * T L) * A) :=
  match t, vs with
  | Leaf a, [] => Some ([], a)
  | Draw d k, v :: vs' => option_map (fun x => ((d, v) :: fst x, snd x)) (walkd (k v) vs')
  | _, _ => None
  end.
Lemma walkd_path {L : lib} {A} (t : stree L A) vs ds a : walkd t vs = Some (ds, a) -> path t ds a.
Proof.
  revert vs ds. induction t as [x|d k IH]; intros [|v vs] ds H; cbn in H; try discriminate.
  - injection H as <- <-. constructor.
  - destruct (walkd (k v) vs) as [[ds' a']|] eqn:E; cbn in H; [|discriminate].
    injection H as <- <-. constructor. eapply IH. exact E.
Qed.

(** proving by computation what a call with given draws returns: [f] extracts first-order data
    from the result *)
Lemma seen_by {L : lib} {A B} (m : M L A) s vs (f : A -> st L -> B) b :
  match walk (m s) vs with Some (Ok o, s') => Some (f o s') | _ => None end = Some b ->
  exists o s', returns m s o s' /\ f o s' = b.
Proof.
  destruct (walk (m s) vs) as [[[o|e] s']|] eqn:E; intros H; try discriminate.
  exists o, s'. split; [apply (walk_outcome _ _ _ E)|]. injection H. intros; assumption.
Qed.
(** ... or raises *)
Lemma raised_by {L : lib} {A} (m : M L A) s vs ds e :
  match walkd (m s) vs with Some (ds, (Err e, s')) => Some (ds, e) | _ => None end = Some (ds, e) ->
  exists s', path (m s) ds (Err e, s').
Proof.
  destruct (walkd (m s) vs) as [[ds' [[o|e'] s']]|] eqn:E; intros H; try discriminate.
  injection H as -> ->. exists s'. apply (walkd_path _ _ _ _ E).
Qed.
(** ... along a path *)
Lemma path_by {L : lib} {A B} (m : M L A) s vs (f : A -> st L -> B) b :
  match walkd (m s) vs with Some (_, (Ok o, s')) => Some (f o s') | _ => None end = Some b ->
  exists ds o s', path (m s) ds (Ok o, s') /\ f o s' = b.
Proof.
  destruct (walkd (m s) vs) as [[ds [[o|e] s']]|] eqn:E; intros H; try discriminate.
  exists ds, o, s'. split; [apply (walkd_path _ _ _ _ E)|]. injection H. intros; assumption.
Qed.
(** ... two calls, the second in a state computed from the first's result *)
Lemma path2_by {L : lib} {A A' B} (m : M L A) s vs (m' : A -> M L A') (g : A -> st L -> st L) vs'
    (f : A -> A' -> B) b :
  match walkd (m s) vs with
  | Some (_, (Ok o, s1)) =>
      match walkd (m' o (g o s1)) vs' with Some (_, (Ok o', _)) => Some (f o o') | _ => None end
  | _ => None end = Some b ->
  exists ds o s1 ds' o' s2, path (m s) ds (Ok o, s1) /\ path (m' o (g o s1)) ds' (Ok o', s2) /\ f o o' = b.
Proof.
  destruct (walkd (m s) vs) as [[ds [[o|e] s1]]|] eqn:E; intros H; try discriminate.
  destruct (walkd (m' o (g o s1)) vs') as [[ds' [[o'|e'] s2]]|] eqn:E'; try discriminate.
  exists ds, o, s1, ds', o', s2. split; [apply (walkd_path _ _ _ _ E)|]. split; [apply (walkd_path _ _ _ _ E')|].
  injection H. intros; assumption.
Qed.
Lemma path_walk {L : lib} {A} (t : stree L A) ds a : path t ds a -> walk t (map snd ds) = Some a.
Proof. induction 1; [reflexivity|]. cbn. assumption. Qed.
