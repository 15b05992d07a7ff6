(** C88, and C68 for a training with the real sampler: what APG training leaves behind. *)
From Verif Require Import ApgTrain Runs Prop_Runs RunFacts Thm_Calls SpecParticles InstancesPop ApgWitness Prop_ApgReport.
Close Scope R_scope.
Open Scope nat_scope.

(** ** C88 The checkpoint holds the parameters after the last completed file *)
(** what happened, seen from outside: the content of the checkpoint file ([None]: not written
    by this run), the parameters in memory (from [p] on), the files visited *)
Fixpoint checkpoint {P} (l : list (event P)) : option P :=
  match l with
  | [] => None
  | EvSave _ _ p :: l' => match checkpoint l' with Some q => Some q | None => Some p end
  | _ :: l' => checkpoint l'
  end.
Fixpoint in_memory {P} (p : P) (l : list (event P)) : P :=
  match l with [] => p | EvStep _ _ _ q :: l' => in_memory q l' | _ :: l' => in_memory p l' end.
(** file [g] of epoch [e], and the one visited after it *)
Definition next_file (nfiles : nat) (eg : nat * nat) : nat * nat :=
  if S (snd eg) =? nfiles then (S (fst eg), 0) else (fst eg, S (snd eg)).
(** the steps in [l] are all made on the file [eg] *)
Definition only_in {P} (eg : nat * nat) (l : list (event P)) : Prop := forall e g b p, In (EvStep e g b p) l -> (e, g) = eg.

Definition steps_from {P} (e g b : nat) (ps : list P) : list (event P) :=
  map (fun bp => EvStep e g (fst bp) (snd bp)) (combine (seq b (length ps)) ps).
Definition is_print {P} (x : event P) : Prop := match x with EvPrint _ _ _ => True | _ => False end.
(** the events of a training that goes on with file [eg] and the parameters [p] *)
Inductive train_log {P} (nfiles : nat) : nat * nat -> P -> list (event P) -> Prop :=
| log_stop e g p ps prints : Forall is_print prints -> train_log nfiles (e, g) p (steps_from e g 0 ps ++ prints)
| log_file e g p ps prints rest : Forall is_print prints -> train_log nfiles (next_file nfiles (e, g)) (List.last ps p) rest ->
    train_log nfiles (e, g) p (steps_from e g 0 ps ++ EvSave e g (List.last ps p) :: prints ++ rest).

Lemma checkpoint_app {P} (l l' : list (event P)) : checkpoint (l ++ l') = match checkpoint l' with Some q => Some q | None => checkpoint l end.
Proof. induction l as [|[e g b p|e g p|e g m] l IH]; cbn; [destruct (checkpoint l'); reflexivity|exact IH| |exact IH]. rewrite IH. destruct (checkpoint l'); reflexivity. Qed.
Lemma in_memory_app {P} (p : P) l l' : in_memory p (l ++ l') = in_memory (in_memory p l) l'.
Proof. revert p. induction l as [|[e g b q|e g q|e g m] l IH]; intros p; cbn; auto. Qed.
Lemma last_cons {A} (x : A) l d : List.last (x :: l) d = List.last l x.
Proof. revert x d. induction l as [|y l IH]; intros x d; [reflexivity|]. change (List.last (x :: y :: l) d) with (List.last (y :: l) d). rewrite !IH. reflexivity. Qed.
Lemma steps_cons_from {P} e g b (p : P) ps : steps_from e g b (p :: ps) = EvStep e g b p :: steps_from e g (S b) ps.
Proof. reflexivity. Qed.
Lemma steps_from_facts {P} e g (ps : list P) : forall b p, checkpoint (steps_from e g b ps) = None /\ in_memory p (steps_from e g b ps) = List.last ps p /\ only_in (e, g) (steps_from e g b ps).
Proof.
  induction ps as [|q ps IH]; intros b p; [repeat split; intros ? ? ? ? []|]. rewrite steps_cons_from, last_cons. destruct (IH (S b) q) as (H1 & H2 & H3). cbn.
  split; [exact H1|]. split; [exact H2|]. intros e' g' b' p' [[= <- <- <- <-]|H]; [reflexivity|exact (H3 _ _ _ _ H)].
Qed.
Lemma prints_facts {P} (l : list (event P)) : Forall is_print l -> checkpoint l = None /\ (forall p, in_memory p l = p) /\ (forall eg, only_in eg l).
Proof.
  induction 1 as [|x l Hx Hl (H1 & H2 & H3)]; [repeat split; intros ? ? ? ? ? []|]. destruct x; try contradiction. cbn. split; [exact H1|]. split; [exact H2|].
  intros eg e' g' b' p' [E|H]; [discriminate|exact (H3 _ _ _ _ _ H)].
Qed.
Lemma only_app {P} eg (l l' : list (event P)) : only_in eg (l ++ l') <-> only_in eg l /\ only_in eg l'.
Proof.
  unfold only_in. split; [intros H; split; intros e g b p Hin; apply (H e g b p), in_app_iff; auto|]. intros [H1 H2] e g b p Hin. apply in_app_iff in Hin. destruct Hin; eauto.
Qed.
Lemma prefix_app {A} (a b c d : list A) : a ++ b = c ++ d -> (exists x, c = a ++ x /\ b = x ++ d) \/ (exists x, a = c ++ x /\ d = x ++ b).
Proof.
  revert c. induction a as [|y a IH]; intros c H; [left; exists c; auto|]. destruct c as [|z c]; [right; exists (y :: a); auto|]. cbn in H. injection H as -> H.
  destruct (IH c H) as [(x & -> & ->)|(x & -> & ->)]; [left|right]; exists x; auto.
Qed.
Lemma checkpoint_prefix {P} (l l' : list (event P)) : checkpoint (l ++ l') = None -> checkpoint l = None.
Proof. rewrite checkpoint_app. destruct (checkpoint l'); [discriminate|auto]. Qed.

Lemma log_prefix {P} nfiles eg (p : P) l : train_log nfiles eg p l -> forall l1 l2, l = l1 ++ l2 ->
  match checkpoint l1 with
  | None => only_in eg l1
  | Some q => exists e g l0 l3, l1 = l0 ++ EvSave e g q :: l3 /\ q = in_memory p l0 /\ checkpoint l3 = None /\ only_in (next_file nfiles (e, g)) l3
  end.
Proof.
  induction 1 as [e g p ps prints Hp|e g p ps prints rest Hp Hr IH]; intros l1 l2 E.
  - destruct (steps_from_facts e g ps 0 p) as (S1 & _ & S3). destruct (prints_facts _ Hp) as (P1 & _ & P3).
    assert (C : checkpoint (l1 ++ l2) = None) by (rewrite <- E, checkpoint_app, P1; exact S1). rewrite (checkpoint_prefix _ _ C).
    apply (only_app (e, g) l1 l2). rewrite <- E. apply only_app. split; [exact S3|apply P3].
  - destruct (steps_from_facts e g ps 0 p) as (S1 & S2 & S3). destruct (prints_facts _ Hp) as (P1 & P2 & P3).
    destruct (prefix_app _ _ _ _ E) as [(x & -> & Ex)|(x & Ex & _)].
    2: { rewrite Ex in S1, S3. rewrite (checkpoint_prefix _ _ S1). apply only_app in S3. apply S3. }
    destruct x as [|y x]; [cbn in Ex; rewrite app_nil_r, S1; exact S3|]. cbn in Ex. injection Ex as <- Ex.
    destruct (prefix_app _ _ _ _ Ex) as [(z & -> & Ez)|(z & Ez & _)].
    + specialize (IH z l2 Ez). rewrite checkpoint_app. cbn [checkpoint]. rewrite checkpoint_app. destruct (checkpoint z) as [q|] eqn:Cz.
      * destruct IH as (e' & g' & l0 & l3 & -> & Hq & H3 & H4). exists e', g', (steps_from e g 0 ps ++ EvSave e g (List.last ps p) :: prints ++ l0), l3.
        split; [rewrite <- !app_assoc; cbn; rewrite <- !app_assoc; reflexivity|]. split; [|split; [exact H3|exact H4]].
        rewrite in_memory_app. cbn [in_memory]. rewrite in_memory_app, S2, P2. exact Hq.
      * rewrite P1. exists e, g, (steps_from e g 0 ps), (prints ++ z). split; [reflexivity|]. split; [symmetry; exact S2|]. rewrite checkpoint_app, Cz. split; [exact P1|apply only_app; split; [apply P3|exact IH]].
    + rewrite Ez in P1, P3. assert (Cx : checkpoint x = None) by exact (checkpoint_prefix _ _ P1). rewrite checkpoint_app. cbn [checkpoint]. rewrite Cx.
      exists e, g, (steps_from e g 0 ps), x. split; [reflexivity|]. split; [symmetry; exact S2|]. split; [exact Cx|]. specialize (P3 (next_file nfiles (e, g))). apply only_app in P3. apply P3.
Qed.

Section Logs.
  Context {L : lib} (W : array_view L) {P : Type} (net : P -> nets L) (step : P -> out L -> res P).
  Context (wmean : T L -> T L -> T L) (node_sum : T L -> T L) (rs : resampler L) (num_sweeps T_ : nat).
  Context (smoke : option nat) (load : nat -> nat -> res (list (T L))).
  Notation batches := (apg_batches W net step wmean node_sum rs num_sweeps T_ smoke).
  Notation files := (apg_files W net step wmean node_sum rs num_sweeps T_ smoke load).
  Notation epochs := (apg_epochs W net step wmean node_sum rs num_sweeps T_ smoke load).

  Lemma batches_log e g n : forall frames b p c m s l r s', outcome (batches e g n b p c m frames s) (l, r, s') ->
    exists ps prints, l = steps_from e g b ps ++ prints /\ Forall is_print prints /\
      match r with
      | Ok (p', _, _, false) => p' = List.last ps p /\ prints = [] /\ length ps = length frames
      | Ok (p', _, _, true) => p' = List.last ps p
      | Err _ => True
      end.
  Proof.
    induction frames as [|f frames IH]; intros b p c m s l r s' H; cbn [apg_batches] in H.
    - inversion H; subst. exists [], []. repeat split; constructor.
    - apply outcome_tbind in H. destruct H as ([[o|er] s1] & _ & H); [|inversion H; subst; exists [], []; repeat split; constructor].
      destruct (step p o) as [p1|er]; [|inversion H; subst; exists [], []; repeat split; constructor].
      destruct (batch_metrics W num_sweeps o) as [m1|er]; [|inversion H; subst; exists [p1], []; repeat split; constructor].
      cbv zeta in H. destruct (match smoke with Some k => k <=? S c | None => false end).
      + inversion H; subst. exists [p1], [EvPrint e g (cleanup (add_metrics m m1) n)]. repeat split; repeat constructor.
      + apply outcome_tbind in H. destruct H as ([[l1 r1] s2] & Ho & H). inversion H; subst. destruct (IH _ _ _ _ _ _ _ _ Ho) as (ps & prints & -> & Hp & Hr).
        exists (p1 :: ps), prints. rewrite steps_cons_from, last_cons. split; [reflexivity|]. split; [exact Hp|]. destruct r as [[[[p' c'] m'] [|]]|]; cbn [length]; try exact Hr. intuition congruence.
  Qed.
  (** from file [g] of epoch [e] on; [k]: what comes after this epoch *)
  Lemma files_log nfiles e : forall n g p c s l r s', g + n = nfiles -> outcome (files e g n p c s) (l, r, s') ->
    match r with
    | Ok (p', _, false) => n = 0 /\ l = [] /\ p' = p \/ 0 < n /\ (checkpoint l = Some p' /\ in_memory p l = p') /\ forall rest, train_log nfiles (S e, 0) p' rest -> train_log nfiles (e, g) p (l ++ rest)
    | _ => train_log nfiles (e, g) p l
    end.
  Proof.
    induction n as [|n IH]; intros g p c s l r s' Hg H; cbn [apg_files] in H; [inversion H; subst l r s'; left; auto|].
    destruct (load e g) as [frames|er]; [|inversion H; subst l r s'; exact (log_stop nfiles e g p [] [] (Forall_nil _))].
    apply outcome_tbind in H. destruct H as ([[l1 r1] s1] & Ho & H). destruct (batches_log _ _ _ _ _ _ _ _ _ _ _ _ Ho) as (ps & prints & -> & Hp & Hr).
    destruct r1 as [[[[p1 c1] m1] [|]]|er]; [inversion H; subst l r s'; constructor; exact Hp| |inversion H; subst l r s'; constructor; exact Hp].
    destruct Hr as (-> & -> & _). rewrite app_nil_r in H. clear Hp. set (pr := match smoke with None => _ | Some _ => _ end) in H.
    assert (Hpr : Forall is_print pr) by (unfold pr; destruct smoke; repeat constructor). clearbody pr.
    apply outcome_tbind in H. destruct H as ([[l2 r2] s2] & Ho2 & H). inversion H; subst l r s'. clear H. specialize (IH (S g) _ _ _ _ _ _ ltac:(lia) Ho2).
    assert (Nx : n <> 0 -> next_file nfiles (e, g) = (e, S g)) by (intros Hn; unfold next_file; cbn [fst snd]; destruct (Nat.eqb_spec (S g) nfiles); [lia|reflexivity]).
    assert (Nx0 : n = 0 -> next_file nfiles (e, g) = (S e, 0)) by (intros Hn; unfold next_file; cbn [fst snd]; destruct (Nat.eqb_spec (S g) nfiles); [reflexivity|lia]).
    destruct (prints_facts _ Hpr) as (P1 & P2 & _). destruct (steps_from_facts e g ps 0 p) as (S1 & S2 & _).
    assert (Stop : n = 0 -> l2 = [] /\ exists c', r2 = Ok (List.last ps p, c', false)) by (intros ->; cbn in Ho2; inversion Ho2; eauto).
    destruct r2 as [[[p2 c2] [|]]|er].
    - destruct (Nat.eq_dec n 0) as [E|E]; [destruct (Stop E) as (_ & c' & F); discriminate|]. rewrite <- app_assoc. cbn. constructor; [exact Hpr|]. rewrite (Nx E). exact IH.
    - right. split; [lia|]. destruct IH as [(-> & -> & ->)|(Hn & (C & I) & IH)].
      + rewrite app_nil_r. split; [rewrite checkpoint_app; cbn [checkpoint]; rewrite P1; split; [reflexivity|]; rewrite in_memory_app; cbn [in_memory]; rewrite P2; exact S2|].
        intros rest Hrest. rewrite <- app_assoc. cbn. constructor; [exact Hpr|]. rewrite Nx0 by reflexivity. exact Hrest.
      + split; [rewrite checkpoint_app, C; split; [reflexivity|]; rewrite in_memory_app, in_memory_app; cbn [in_memory]; rewrite S2, P2; exact I|].
        intros rest Hrest. rewrite <- !app_assoc. cbn. constructor; [exact Hpr|]. rewrite Nx by lia. apply IH, Hrest.
    - destruct (Nat.eq_dec n 0) as [E|E]; [destruct (Stop E) as (_ & c' & F); discriminate|]. rewrite <- app_assoc. cbn. constructor; [exact Hpr|]. rewrite (Nx E). exact IH.
  Qed.
  Lemma epochs_log nfiles : 0 < nfiles -> forall n e p c s l r s', outcome (epochs nfiles e n p c s) (l, r, s') ->
    train_log nfiles (e, 0) p l /\ (forall p' c', r = Ok (p', c', false) -> in_memory p l = p' /\ (0 < n -> checkpoint l = Some p')) .
  Proof.
    intros Hn0. induction n as [|n IH]; intros e p c s l r s' H; cbn [apg_epochs] in H.
    - inversion H; subst. split; [exact (log_stop nfiles e 0 p [] [] (Forall_nil _))|]. intros p' c' [= <- <-]. split; [reflexivity|lia].
    - apply outcome_tbind in H. destruct H as ([[l1 r1] s1] & Ho & H). pose proof (files_log nfiles e nfiles 0 _ _ _ _ _ _ eq_refl Ho) as F.
      destruct r1 as [[[p1 c1] [|]]|er]; [inversion H; subst; split; [exact F|discriminate]| |inversion H; subst; split; [exact F|discriminate]].
      destruct F as [(F & _)|(_ & (C & I) & F)]; [lia|]. apply outcome_tbind in H. destruct H as ([[l2 r2] s2] & Ho2 & H). inversion H; subst l r s'. destruct (IH _ _ _ _ _ _ _ Ho2) as (G1 & G2).
      split; [apply F, G1|]. intros p' c' E. destruct (G2 p' c' E) as (I2 & C2). rewrite in_memory_app, I, checkpoint_app. split; [exact I2|]. intros _.
      destruct n as [|n]; [|rewrite C2 by lia; reflexivity]. cbn in Ho2. inversion Ho2; subst l2 r2. cbn. rewrite C. congruence.
  Qed.
End Logs.

(** Wherever a training is interrupted ([done]: what it has done by then; an exception, a smoke test or
    somebody may have ended it), the checkpoint holds the parameters that were in memory when it
    was written, and all batches trained on since then belong to one file: the one after the file it was
    written for.  If it has not been written, only the first file was being trained on. *)
Theorem C88_interrupted : forall (L : lib) (W : array_view L) P net step wmean node_sum rs num_sweeps T_ smoke load nfiles epochs (p : P) s log r s',
  0 < nfiles ->
  outcome (apg_train W net step wmean node_sum rs num_sweeps T_ smoke load nfiles epochs p s) (log, r, s') ->
  forall done todo, log = done ++ todo ->
  match checkpoint done with
  | None => only_in (0, 0) done
  | Some q => exists e g before since, done = before ++ EvSave e g q :: since /\
      q = in_memory p before /\ checkpoint since = None /\ only_in (next_file nfiles (e, g)) since
  end.
Proof.
  intros L W P net step wmean node_sum rs ns T_ smoke load nf ep p s log r s' Hn H l1 l2 E. unfold apg_train in H.
  apply outcome_tbind in H. destruct H as ([[l r1] s1] & Ho & H). inversion H; subst l. destruct (epochs_log W net step wmean node_sum rs ns T_ smoke load nf Hn _ _ _ _ _ _ _ _ Ho) as (G & _).
  exact (log_prefix _ _ _ _ G l1 l2 E).
Qed.
Print Assumptions C88_interrupted.

(** A training that runs to its end returns the parameters in memory and has written them to the
    checkpoint. *)
Theorem C88_finished : forall (L : lib) (W : array_view L) P net step wmean node_sum rs num_sweeps T_ load nfiles epochs (p : P) s log p' s',
  0 < nfiles -> 0 < epochs ->
  outcome (apg_train W net step wmean node_sum rs num_sweeps T_ None load nfiles epochs p s) (log, Ok p', s') ->
  in_memory p log = p' /\ checkpoint log = Some p'.
Proof.
  intros L W P net step wmean node_sum rs ns T_ load nf ep p s log p' s' Hn He H. unfold apg_train in H.
  apply outcome_tbind in H. destruct H as ([[l r1] s1] & Ho & H). inversion H; subst l s1. clear H.
  destruct r1 as [[[p1 c1] b]|]; [|discriminate]. cbn in *. match goal with E : Ok p1 = Ok p' |- _ => injection E as -> end.
  assert (Eb : b = false).
  { clear - Ho. assert (HB : forall e g n frames b0 p c m s l p' c' m' b s', outcome (apg_batches W net step wmean node_sum rs ns T_ None e g n b0 p c m frames s) (l, Ok (p', c', m', b), s') -> b = false).
    { clear. induction frames as [|f frames IH]; intros b0 p c m s l p' c' m' b s' H; cbn [apg_batches] in H; [inversion H; reflexivity|].
      apply outcome_tbind in H. destruct H as ([[o|er] s1] & _ & H); [|inversion H]. destruct (step p o); [|inversion H]. destruct (batch_metrics W ns o); [|inversion H]. cbv zeta iota in H.
      apply outcome_tbind in H. destruct H as ([[l1 r1] s2] & Ho & H). inversion H; subst. eapply IH, Ho. }
    assert (HF : forall e n g p c s l p' c' b s', outcome (apg_files W net step wmean node_sum rs ns T_ None load e g n p c s) (l, Ok (p', c', b), s') -> b = false).
    { intros e. induction n as [|n IH]; intros g q c s0 l p1 c' b0 s1 H; cbn [apg_files] in H; [inversion H; reflexivity|]. destruct (load e g); [|inversion H].
      apply outcome_tbind in H. destruct H as ([[l1 r1] s2] & Hb & H). destruct r1 as [[[[p2 c2] m2] [|]]|]; [apply HB in Hb; discriminate| |inversion H].
      apply outcome_tbind in H. destruct H as ([[l2 r2] s3] & Ho2 & H). inversion H; subst. eapply IH, Ho2. }
    assert (HE : forall n e p c s l p' c' b s', outcome (apg_epochs W net step wmean node_sum rs ns T_ None load nf e n p c s) (l, Ok (p', c', b), s') -> b = false).
    { induction n as [|n IH]; intros e q c s0 l q' c' b0 s1 H; cbn [apg_epochs] in H; [inversion H; reflexivity|].
      apply outcome_tbind in H. destruct H as ([[l1 r1] s2] & Hb & H). destruct r1 as [[[p2 c2] [|]]|]; [apply HF in Hb; discriminate| |inversion H].
      apply outcome_tbind in H. destruct H as ([[l2 r2] s3] & Ho2 & H). inversion H; subst. eapply IH, Ho2. }
    eapply HE, Ho. }
  subst b. destruct (epochs_log W net step wmean node_sum rs ns T_ None load nf Hn _ _ _ _ _ _ _ _ Ho) as (_ & G). destruct (G p' c1 eq_refl) as (G1 & G2). auto.
Qed.
Print Assumptions C88_finished.

(** every step is the optimiser's, with the result of the sampler on that batch of that file; [p], [s]: the
    parameters and the state before it *)
Inductive trained_by {L : lib} {P : Type} (call : P -> T L -> M L (out L)) (step : P -> out L -> res P) (load : nat -> nat -> res (list (T L))) :
    P -> st L -> list (event P) -> Prop :=
| by_nil p s : trained_by call step load p s []
| by_step p s e g b p' l frames f o s' : load e g = Ok frames -> nth_error frames b = Some f -> returns (call p f) s o s' -> step p o = Ok p' ->
    trained_by call step load p' s' l -> trained_by call step load p s (EvStep e g b p' :: l)
| by_save p s e g q l : trained_by call step load p s l -> trained_by call step load p s (EvSave e g q :: l)
| by_print p s e g m l : trained_by call step load p s l -> trained_by call step load p s (EvPrint e g m :: l).

Section Steps.
  Context {L : lib} (W : array_view L) {P : Type} (net : P -> nets L) (step : P -> out L -> res P).
  Context (wmean : T L -> T L -> T L) (node_sum : T L -> T L) (rs : resampler L) (num_sweeps T_ : nat).
  Context (smoke : option nat) (load : nat -> nat -> res (list (T L))).
  Notation call := (apg_call net wmean node_sum rs num_sweeps T_).
  Notation batches := (apg_batches W net step wmean node_sum rs num_sweeps T_ smoke).
  Notation files := (apg_files W net step wmean node_sum rs num_sweeps T_ smoke load).
  Notation epochs := (apg_epochs W net step wmean node_sum rs num_sweeps T_ smoke load).
  Notation by_ := (trained_by call step load).
  Lemma batches_by e g n all : load e g = Ok all -> forall frames b p c m s l r s', skipn b all = frames -> outcome (batches e g n b p c m frames s) (l, r, s') ->
    by_ p s l /\ match r with Ok (p', _, _, _) => forall rest, by_ p' s' rest -> by_ p s (l ++ rest) | Err _ => True end.
  Proof.
    intros Hl. induction frames as [|f frames IH]; intros b p c m s l r s' Hf H; cbn [apg_batches] in H.
    - inversion H; subst. split; [constructor|auto].
    - apply outcome_tbind in H. destruct H as ([[o|er] s1] & Hc & H); [|inversion H; subst; split; [constructor|exact I]].
      destruct (step p o) as [p1|er] eqn:Es; [|inversion H; subst; split; [constructor|exact I]].
      assert (Hb : b <= length all) by (apply (f_equal (@length _)) in Hf; rewrite skipn_length in Hf; cbn in Hf; lia).
      assert (Hd : all = firstn b all ++ f :: frames) by (rewrite <- Hf; symmetry; apply firstn_skipn).
      assert (Hk : length (firstn b all) = b) by (apply firstn_length_le, Hb).
      assert (Hn : nth_error all b = Some f) by (rewrite Hd, nth_error_app2, Hk, Nat.sub_diag by lia; reflexivity).
      assert (Hs : skipn (S b) all = frames).
      { rewrite Hd, skipn_app, Hk, skipn_all2 by lia. replace (S b - b) with 1 by lia. reflexivity. }
      assert (One : forall l, by_ p1 s1 l -> by_ p s (EvStep e g b p1 :: l)) by (intros l0 Hl0; eapply by_step; eassumption).
      destruct (batch_metrics W num_sweeps o) as [m1|er]; [|inversion H; subst; split; [apply One; constructor|exact I]].
      cbv zeta in H. destruct (match smoke with Some k => k <=? S c | None => false end).
      + inversion H; subst. split; [apply One; repeat constructor|]. intros rest Hr. cbn. apply One. constructor. exact Hr.
      + apply outcome_tbind in H. destruct H as ([[l1 r1] s2] & Ho & H). inversion H; subst l r s'. destruct (IH _ _ _ _ _ _ _ _ Hs Ho) as (B1 & B2).
        split; [apply One, B1|]. destruct r1 as [[[[p' c'] m'] b']|]; [|exact I]. intros rest Hr. cbn. apply One, B2, Hr.
  Qed.
  Lemma files_by e : forall n g p c s l r s', outcome (files e g n p c s) (l, r, s') ->
    by_ p s l /\ match r with Ok (p', _, _) => forall rest, by_ p' s' rest -> by_ p s (l ++ rest) | Err _ => True end.
  Proof.
    induction n as [|n IH]; intros g p c s l r s' H; cbn [apg_files] in H; [inversion H; subst; split; [constructor|auto]|].
    destruct (load e g) as [frames|er] eqn:El; [|inversion H; subst; split; [constructor|exact I]].
    apply outcome_tbind in H. destruct H as ([[l1 r1] s1] & Ho & H). destruct (batches_by _ _ _ _ El frames 0 _ _ _ _ _ _ _ eq_refl Ho) as (H1 & H2).
    destruct r1 as [[[[p1 c1] m1] [|]]|er]; [inversion H; subst; auto| |inversion H; subst; auto].
    apply outcome_tbind in H. destruct H as ([[l2 r2] s2] & Ho2 & H). inversion H; subst l r s'. destruct (IH _ _ _ _ _ _ _ Ho2) as (G1 & G2).
    assert (Pr : forall rest, by_ p1 s1 rest -> by_ p s ((l1 ++ EvSave e g p1 :: match smoke with None => [EvPrint e g (cleanup m1 (length frames))] | Some _ => [] end) ++ rest)).
    { intros rest Hr. rewrite <- app_assoc. apply H2. cbn. constructor. destruct smoke; [exact Hr|cbn; constructor; exact Hr]. }
    split; [apply Pr, G1|]. destruct r2 as [[[p2 c2] b2]|]; [|exact I]. intros rest Hr. rewrite <- app_assoc. apply Pr, G2, Hr.
  Qed.
  Lemma epochs_by nfiles : forall n e p c s l r s', outcome (epochs nfiles e n p c s) (l, r, s') -> by_ p s l.
  Proof.
    induction n as [|n IH]; intros e p c s l r s' H; cbn [apg_epochs] in H; [inversion H; subst; constructor|].
    apply outcome_tbind in H. destruct H as ([[l1 r1] s1] & Ho & H). destruct (files_by _ _ _ _ _ _ _ _ _ Ho) as (H1 & H2).
    destruct r1 as [[[p1 c1] [|]]|er]; [inversion H; subst; exact H1| |inversion H; subst; exact H1].
    apply outcome_tbind in H. destruct H as ([[l2 r2] s2] & Ho2 & H). inversion H; subst l r s'. apply H2, (IH _ _ _ _ _ _ _ Ho2).
  Qed.
End Steps.
Theorem C88_steps : forall (L : lib) (W : array_view L) P net step wmean node_sum rs num_sweeps T_ smoke load nfiles epochs (p : P) s log r s',
  outcome (apg_train W net step wmean node_sum rs num_sweeps T_ smoke load nfiles epochs p s) (log, r, s') ->
  trained_by (apg_call net wmean node_sum rs num_sweeps T_) step load p s log.
Proof.
  intros L W P net step wmean node_sum rs ns T_ smoke load nf ep p s log r s' H. unfold apg_train in H.
  apply outcome_tbind in H. destruct H as ([[l r1] s1] & Ho & H). inversion H; subst l. exact (epochs_by W net step wmean node_sum rs ns T_ smoke load nf _ _ _ _ _ _ _ _ Ho).
Qed.
Print Assumptions C88_steps.

(** ** C68 for this training: the order of its steps and saves *)
Definition effects {P} (l : list (event P)) : list effect :=
  flat_map (fun x => match x with EvStep e g b _ => [Step e g b] | EvSave e g _ => [Save e g] | EvPrint _ _ _ => [] end) l.
Lemma effects_app {P} (l l' : list (event P)) : effects (l ++ l') = effects l ++ effects l'.
Proof. apply flat_map_app. Qed.
Section Effects.
  Context {L : lib} (W : array_view L) {P : Type} (net : P -> nets L) (step : P -> out L -> res P).
  Context (wmean : T L -> T L -> T L) (node_sum : T L -> T L) (rs : resampler L) (num_sweeps T_ : nat).
  Context (smoke : option nat) (load : nat -> nat -> res (list (T L))).
  Notation batches := (apg_batches W net step wmean node_sum rs num_sweeps T_ smoke).
  Notation files := (apg_files W net step wmean node_sum rs num_sweeps T_ smoke load).
  Notation epochs := (apg_epochs W net step wmean node_sum rs num_sweeps T_ smoke load).
  Definition batch_count (e g : nat) : nat := match load e g with Ok frames => length frames | Err _ => 0 end.
  Lemma batches_effects e g n : forall frames b p c m s l r s', outcome (batches e g n b p c m frames s) (l, r, s') ->
    match r with
    | Ok (_, c', _, ended) => train_batches smoke e g b (length frames) c = (effects l, c', ended)
    | Err _ => exists rest, fst (fst (train_batches smoke e g b (length frames) c)) = effects l ++ rest
    end.
  Proof.
    induction frames as [|f frames IH]; intros b p c m s l r s' H; cbn [apg_batches] in H.
    - inversion H; subst. reflexivity.
    - apply outcome_tbind in H. destruct H as ([[o|er] s1] & _ & H); [|inversion H; subst; eexists; reflexivity].
      destruct (step p o) as [p1|er]; [|inversion H; subst; eexists; reflexivity]. cbn [length train_batches]. cbv zeta in H. cbv zeta.
      destruct (batch_metrics W num_sweeps o) as [m1|er].
      + destruct (match smoke with Some k => k <=? S c | None => false end); [inversion H; subst; reflexivity|].
        apply outcome_tbind in H. destruct H as ([[l1 r1] s2] & Ho & H). inversion H; subst l r s'. specialize (IH _ _ _ _ _ _ _ _ Ho).
        destruct r1 as [[[[p' c'] m'] b']|]; [rewrite IH; reflexivity|]. destruct IH as (rest & E). destruct (train_batches smoke e g (S b) (length frames) (S c)) as [[l2 c2] r2]. cbn [fst] in *. exists rest. rewrite E. reflexivity.
      + inversion H; subst. destruct (match smoke with Some k => k <=? S c | None => false end); [eexists; reflexivity|].
        destruct (train_batches smoke e g (S b) (length frames) (S c)) as [[l2 c2] r2]. eexists; reflexivity.
  Qed.
  Lemma files_effects e : forall n g p c s l r s', outcome (files e g n p c s) (l, r, s') ->
    match r with
    | Ok (_, c', ended) => train_files smoke (batch_count e) e g n c = (effects l, c', ended)
    | Err _ => exists rest, fst (fst (train_files smoke (batch_count e) e g n c)) = effects l ++ rest
    end.
  Proof.
    induction n as [|n IH]; intros g p c s l r s' H; cbn [apg_files] in H; [inversion H; subst; reflexivity|]. cbn [train_files]. unfold batch_count at 1 3.
    destruct (load e g) as [frames|er] eqn:El; [|inversion H; subst; eexists; reflexivity].
    apply outcome_tbind in H. destruct H as ([[l1 r1] s1] & Ho & H). pose proof (batches_effects _ _ _ _ _ _ _ _ _ _ _ _ Ho) as B. clear Ho.
    destruct r1 as [[[[p1 c1] m1] [|]]|er].
    - inversion H; subst. rewrite B. reflexivity.
    - rewrite B. apply outcome_tbind in H. destruct H as ([[l2 r2] s2] & Ho2 & H). inversion H; subst l r s'. specialize (IH _ _ _ _ _ _ _ Ho2).
      assert (E : forall x, effects ((l1 ++ EvSave e g p1 :: match smoke with None => [EvPrint e g (cleanup m1 (length frames))] | Some _ => [] end) ++ x) = effects l1 ++ Save e g :: effects x).
      { intros x. rewrite effects_app, effects_app, <- app_assoc. destruct smoke; reflexivity. }
      rewrite E. destruct r2 as [[[p2 c2] b2]|]; [rewrite IH; reflexivity|]. destruct IH as (rest & E2). destruct (train_files smoke (batch_count e) e (S g) n c1) as [[l3 c3] r3]. cbn [fst] in *.
      exists rest. rewrite E2, <- app_assoc. reflexivity.
    - inversion H; subst. destruct B as (rest & B). destruct (train_batches smoke e g 0 (length frames) c) as [[l3 c3] r3]. cbn [fst] in B. subst l3.
      destruct r3; [eexists; reflexivity|]. destruct (train_files smoke (batch_count e) e (S g) n c3) as [[l4 c4] r4]. cbn [fst]. eexists. rewrite <- app_assoc. reflexivity.
  Qed.
  Lemma epochs_effects nfiles : forall n e p c s l r s', outcome (epochs nfiles e n p c s) (l, r, s') ->
    match r with
    | Ok (_, c', ended) => train_epochs smoke batch_count nfiles e n c = (effects l, c', ended)
    | Err _ => exists rest, fst (fst (train_epochs smoke batch_count nfiles e n c)) = effects l ++ rest
    end.
  Proof.
    induction n as [|n IH]; intros e p c s l r s' H; cbn [apg_epochs] in H; [inversion H; subst; reflexivity|]. cbn [train_epochs].
    apply outcome_tbind in H. destruct H as ([[l1 r1] s1] & Ho & H). pose proof (files_effects _ _ _ _ _ _ _ _ _ Ho) as B. clear Ho.
    destruct r1 as [[[p1 c1] [|]]|er].
    - inversion H; subst. rewrite B. reflexivity.
    - rewrite B. apply outcome_tbind in H. destruct H as ([[l2 r2] s2] & Ho2 & H). inversion H; subst l r s'. specialize (IH _ _ _ _ _ _ _ Ho2). rewrite effects_app.
      destruct r2 as [[[p2 c2] b2]|]; [rewrite IH; reflexivity|]. destruct IH as (rest & E2). destruct (train_epochs smoke batch_count nfiles (S e) n c1) as [[l3 c3] r3]. cbn [fst] in *.
      exists rest. rewrite E2, <- app_assoc. reflexivity.
    - inversion H; subst. destruct B as (rest & B). destruct (train_files smoke (batch_count e) e 0 nfiles c) as [[l3 c3] r3]. cbn [fst] in B. subst l3.
      destruct r3; [eexists; reflexivity|]. destruct (train_epochs smoke batch_count nfiles (S e) n c3) as [[l4 c4] r4]. cbn [fst]. eexists. rewrite <- app_assoc. reflexivity.
  Qed.
End Effects.
(** The training makes its steps and saves in the order that the theorems above C68 speak about; an
    exception cuts it short. *)
Theorem C68_sampler : forall (L : lib) (W : array_view L) P net step wmean node_sum rs num_sweeps T_ smoke load nfiles epochs (p : P) s log r s',
  outcome (apg_train W net step wmean node_sum rs num_sweeps T_ smoke load nfiles epochs p s) (log, r, s') ->
  (forall p', r = Ok p' -> effects log = train smoke (batch_count load) nfiles epochs) /\
  exists rest, train smoke (batch_count load) nfiles epochs = effects log ++ rest.
Proof.
  intros L W P net step wmean node_sum rs ns T_ smoke load nf ep p s log r s' H. unfold apg_train in H.
  apply outcome_tbind in H. destruct H as ([[l r1] s1] & Ho & H). inversion H; subst l r. pose proof (epochs_effects W net step wmean node_sum rs ns T_ smoke load nf _ _ _ _ _ _ _ _ Ho) as B.
  unfold train. destruct r1 as [[[p1 c1] b]|er].
  - rewrite B. cbn [fst]. split; [reflexivity|]. exists []. rewrite app_nil_r. reflexivity.
  - split; [discriminate|exact B].
Qed.
Print Assumptions C68_sampler.
(** without a smoke test: every batch of every file of every epoch, and a save after each file *)
Theorem C68_complete : forall (L : lib) (W : array_view L) P net step wmean node_sum rs num_sweeps T_ load nfiles epochs (p : P) s log p' s',
  outcome (apg_train W net step wmean node_sum rs num_sweeps T_ None load nfiles epochs p s) (log, Ok p', s') ->
  effects log = Prop_Runs.whole (batch_count load) nfiles epochs.
Proof.
  intros L W P net step wmean node_sum rs ns T_ load nf ep p s log p' s' H. rewrite <- C68_training. eapply C68_sampler; [exact H|reflexivity].
Qed.
Print Assumptions C68_complete.

(** ** C77 for this training: what each printed line says *)
Section Printed.
  Context {L : lib} (W : array_view L) {P : Type} (net : P -> nets L) (step : P -> out L -> res P).
  Context (wmean : T L -> T L -> T L) (node_sum : T L -> T L) (rs : resampler L) (num_sweeps T_ : nat).
  Context (load : nat -> nat -> res (list (T L))).
  Notation call := (apg_call net wmean node_sum rs num_sweeps T_).
  Lemma batches_erase smoke e g n : forall frames b p c m s l p' c' m' ended s',
    outcome (apg_batches W net step wmean node_sum rs num_sweeps T_ smoke e g n b p c m frames s) (l, Ok (p', c', m', ended), s') ->
    outcome (train_file W net step wmean node_sum rs num_sweeps T_ smoke p c m frames s) (Ok (m', p', c', ended), s').
  Proof.
    induction frames as [|f frames IH]; intros b p c m s l p' c' m' ended s' H; cbn [apg_batches train_file] in *; [inversion H; subst; constructor|].
    apply outcome_tbind in H. destruct H as ([[o|er] s1] & Hc & H); [|inversion H]. eapply outcome_seq; [exact Hc|]. cbn beta iota.
    destruct (step p o) as [p1|er]; [|inversion H]. cbn [rbind]. destruct (batch_metrics W num_sweeps o) as [m1|er]; [|inversion H]. cbn [rmap rbind]. cbv zeta in *.
    destruct (match smoke with Some k => k <=? S c | None => false end); [inversion H; subst; constructor|].
    apply outcome_tbind in H. destruct H as ([[l1 r1] s2] & Ho & H). inversion H; subst. eapply IH, Ho.
  Qed.
  (** the printed line [m] of file [g] of epoch [e]: the means over the batches of the file *)
  Definition reports_file (e g : nat) (m : metrics) : Prop :=
    exists frames p s os ms p' s', load e g = Ok frames /\ batches_run call step p s frames os p' s' /\
      Forall2 (fun o m => batch_metrics W num_sweeps o = Ok m) os ms /\
      mean_of (map m_ess ms) (m_ess m) /\ mean_of (map m_log_p ms) (m_log_p m) /\ mean_of (map m_loss ms) (m_loss m).
  Lemma batches_quiet e g n : forall frames b p c m s l r s',
    outcome (apg_batches W net step wmean node_sum rs num_sweeps T_ None e g n b p c m frames s) (l, r, s') ->
    (forall e' g' m', ~ In (EvPrint e' g' m') l) /\ match r with Ok (_, _, _, ended) => ended = false | Err _ => True end.
  Proof.
    induction frames as [|f frames IH]; intros b p c m s l r s' H; cbn [apg_batches] in H; [inversion H; subst; auto|].
    apply outcome_tbind in H. destruct H as ([[o|er] s1] & _ & H); [|inversion H; subst; auto].
    destruct (step p o) as [p1|er]; [|inversion H; subst; auto]. destruct (batch_metrics W num_sweeps o) as [m1|er].
    - cbv zeta iota in H. apply outcome_tbind in H. destruct H as ([[l1 r1] s2] & Ho & H). inversion H; subst l r s'. destruct (IH _ _ _ _ _ _ _ _ Ho) as (B1 & B2).
      split; [|exact B2]. intros e' g' m' [E|Hin]; [discriminate|exact (B1 _ _ _ Hin)].
    - inversion H; subst. split; [|exact I]. intros e' g' m' [E|[]]; discriminate.
  Qed.
  Lemma files_reports e : forall n g p c s l r s',
    outcome (apg_files W net step wmean node_sum rs num_sweeps T_ None load e g n p c s) (l, r, s') ->
    forall e' g' m, In (EvPrint e' g' m) l -> reports_file e' g' m.
  Proof.
    induction n as [|n IH]; intros g p c s l r s' H e' g' m Hin; cbn [apg_files] in H; [inversion H; subst; contradiction|].
    destruct (load e g) as [frames|er] eqn:El; [|inversion H; subst; contradiction].
    apply outcome_tbind in H. destruct H as ([[l1 r1] s1] & Ho & H). destruct (batches_quiet _ _ _ _ _ _ _ _ _ _ _ _ Ho) as (Q & Qe).
    destruct r1 as [[[[p1 c1] m1] ended]|er]; [|inversion H; subst; exfalso; exact (Q _ _ _ Hin)]. subst ended.
    apply outcome_tbind in H. destruct H as ([[l2 r2] s2] & Ho2 & H). inversion H; subst l r s'. clear H.
    apply in_app_iff in Hin. destruct Hin as [Hin|Hin]; [|exact (IH _ _ _ _ _ _ _ Ho2 _ _ _ Hin)].
    apply in_app_iff in Hin. destruct Hin as [Hin|[E|[E|[]]]]; [exfalso; exact (Q _ _ _ Hin)|discriminate|]. injection E as <- <- <-.
    apply batches_erase in Ho.
    destruct (C77_report L W P net step wmean node_sum rs num_sweeps T_ p c frames s (Some (cleanup m1 (length frames))) p1 c1 false s1) as (os & ms & Hb & Hf & _ & m' & [= <-] & M1 & M2 & M3).
    { unfold file_report. eapply outcome_seq; [exact Ho|]. constructor. }
    exists frames, p, s, os, ms, p1, s1. auto 8.
  Qed.
  Lemma epochs_reports nfiles : forall n e p c s l r s',
    outcome (apg_epochs W net step wmean node_sum rs num_sweeps T_ None load nfiles e n p c s) (l, r, s') ->
    forall e' g' m, In (EvPrint e' g' m) l -> reports_file e' g' m.
  Proof.
    induction n as [|n IH]; intros e p c s l r s' H e' g' m Hin; cbn [apg_epochs] in H; [inversion H; subst; contradiction|].
    apply outcome_tbind in H. destruct H as ([[l1 r1] s1] & Ho & H). pose proof (files_reports _ _ _ _ _ _ _ _ _ Ho) as F.
    destruct r1 as [[[p1 c1] [|]]|er]; [inversion H; subst; eapply F, Hin| |inversion H; subst; eapply F, Hin].
    apply outcome_tbind in H. destruct H as ([[l2 r2] s2] & Ho2 & H). inversion H; subst l r s'. apply in_app_iff in Hin. destruct Hin as [Hin|Hin]; [eapply F, Hin|eapply IH; [exact Ho2|exact Hin]].
  Qed.
End Printed.
(** Every line that a training prints, also one that ends with an exception, holds the means over all
    the batches of the file it is printed for. *)
Theorem C77_training : forall (L : lib) (W : array_view L) P net step wmean node_sum rs num_sweeps T_ load nfiles epochs (p : P) s log r s',
  outcome (apg_train W net step wmean node_sum rs num_sweeps T_ None load nfiles epochs p s) (log, r, s') ->
  forall e g m, In (EvPrint e g m) log -> reports_file W net step wmean node_sum rs num_sweeps T_ load e g m.
Proof.
  intros L W P net step wmean node_sum rs ns T_ load nf ep p s log r s' H. unfold apg_train in H.
  apply outcome_tbind in H. destruct H as ([[l r1] s1] & Ho & H). inversion H; subst l. exact (epochs_reports W net step wmean node_sum rs ns T_ load nf _ _ _ _ _ _ _ _ Ho).
Qed.
Print Assumptions C77_training.

Lemma call_same {L : lib} (n : nets L) {P} (p : P) wmean node_sum rs num_sweeps T_ f :
  apg_call (fun _ : P => n) wmean node_sum rs num_sweeps T_ p f = apg_call (fun _ : unit => n) wmean node_sum rs num_sweeps T_ tt f.
Proof. reflexivity. Qed.
(** A training on two files with the real sampler: the second file cannot be loaded. *)
Definition loadV (e g : nat) : res (list (T PopL)) := match g with 0 => Ok [kt 1] | _ => Err AssertionError end.
Example C88_case : exists m s', outcome
  (apg_train PopV (fun _ : nat => netsV) (fun p _ => Ok (S p)) meanV (fun x => x) (systematic PopV true) 1 1 None loadV 2 3 7 stV)
  ([EvStep 0 0 0 8; EvSave 0 0 8; EvPrint 0 0 m], Err AssertionError, s').
Proof.
  destruct (metrics_some l1 (l3 (l2 l1))) as (m & Hm). change (r4 l1 (l3 (l2 l1))) with last in Hm.
  eexists _, _. unfold apg_train. eapply outcome_seq.
  - cbn [apg_epochs]. eapply outcome_seq.
    + cbn [apg_files loadV]. eapply outcome_seq.
      * cbn [apg_batches]. eapply outcome_seq; [rewrite (call_same netsV 7); exact whole|]. cbn beta iota. rewrite Hm. cbv zeta iota. cbn [tbind]. constructor.
      * cbn [tbind app length apg_files loadV]. constructor.
    + cbn [tbind app length apg_epochs]. constructor.
  - cbn. constructor.
Qed.
Example C88_finished_case : exists m s', outcome
  (apg_train PopV (fun _ : nat => netsV) (fun p _ => Ok (S p)) meanV (fun x => x) (systematic PopV true) 1 1 None loadV 1 1 7 stV)
  ([EvStep 0 0 0 8; EvSave 0 0 8; EvPrint 0 0 m], Ok 8, s').
Proof.
  destruct (metrics_some l1 (l3 (l2 l1))) as (m & Hm). change (r4 l1 (l3 (l2 l1))) with last in Hm.
  eexists _, _. unfold apg_train. eapply outcome_seq.
  - cbn [apg_epochs]. eapply outcome_seq.
    + cbn [apg_files loadV]. eapply outcome_seq.
      * cbn [apg_batches]. eapply outcome_seq; [rewrite (call_same netsV 7); exact whole|]. cbn beta iota. rewrite Hm. cbv zeta iota. cbn [tbind]. constructor.
      * cbn [tbind app length apg_files loadV]. constructor.
    + cbn [tbind app length apg_epochs]. constructor.
  - cbn. constructor.
Qed.
