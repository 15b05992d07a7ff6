(** C69: samples of the mixture target. *)
From Coq Require Import Reals Lra Lia Permutation FinFun.
From Verif Require Import Mixture SystematicFacts Prop_Tempering.
Open Scope R_scope.

(** An integral: linear, and the order of integration does not matter.  Every weighted finite sum is
    one ([weighted_sum_integral]), in particular the sum over the finitely many tensors of floating
    point numbers that a program can draw, with the volume each stands for as its weight. *)
Record is_integral {V} (integral : (V -> R) -> R) : Prop := mkIntegral {
  i_ext : forall f g, (forall v, f v = g v) -> integral f = integral g;
  i_plus : forall f g, integral (fun v => f v + g v) = integral f + integral g;
  i_scale : forall c f, integral (fun v => c * f v) = c * integral f;
  i_swap : forall f : V -> V -> R, integral (fun v => integral (fun w => f v w)) = integral (fun w => integral (fun v => f v w)) }.

(** The specification: n independent values with density exp(log_density_fn)/K. *)
Fixpoint iid {V} (integral : (V -> R) -> R) (density : V -> R) (n : nat) (f : list V -> R) : R :=
  match n with
  | O => f []
  | S n' => integral (fun v => density v * iid integral density n' (fun l => f (v :: l)))
  end.

(** ** Expectations that are linear and may be exchanged *)
Section Linear.
  Record lin {A} (m : rnd A) : Prop := mkLin {
    l_ext : forall f g, (forall a, f a = g a) -> m f = m g;
    l_plus : forall f g, m (fun a => f a + g a) = m f + m g;
    l_scale : forall c f, m (fun a => c * f a) = c * m f }.
  Definition commute {A B} (m : rnd A) (m' : rnd B) : Prop :=
    forall f : A -> B -> R, m (fun a => m' (fun b => f a b)) = m' (fun b => m (fun a => f a b)).
  Context {V : Type}.

  Lemma lin_zero {A} (m : rnd A) : lin m -> m (fun _ => 0) = 0.
  Proof. intros H. rewrite (l_ext _ H _ (fun a => 0 * 0)) by (intros; ring). rewrite (l_scale _ H 0 (fun _ => 0)). ring. Qed.
  Lemma lin_sum {A B} (m : rnd A) (l : list B) (f : A -> B -> R) : lin m ->
    m (fun a => rsum (map (f a) l)) = rsum (map (fun b => m (fun a => f a b)) l).
  Proof.
    intros H. induction l as [|b l IH]; cbn [map]; [rewrite rsum_nil; apply lin_zero, H|].
    rewrite rsum_cons, <- IH, <- (l_plus _ H). apply (l_ext _ H). intros a. apply rsum_cons.
  Qed.
  Lemma lin_uniform_commute {A B} (m : rnd A) (l : list B) : lin m -> commute m (uniform l).
  Proof.
    intros H f. unfold uniform, Rdiv. rewrite (l_ext _ H _ (fun a => / INR (length l) * rsum (map (f a) l))) by (intros; apply Rmult_comm).
    rewrite (l_scale _ H), (lin_sum m l f H). apply Rmult_comm.
  Qed.
  Lemma lin_uniform {A} (l : list A) : lin (uniform l).
  Proof.
    split; unfold uniform; intros.
    - f_equal. apply rsum_ext. auto.
    - rewrite rsum_plus. unfold Rdiv. ring.
    - rewrite <- (map_map f (fun x => c * x)), rsum_scale. unfold Rdiv. ring.
  Qed.
  Lemma lin_draws {A} (m : rnd A) n : lin m -> lin (draws n m).
  Proof.
    intros H. induction n as [|n IH]; cbn [draws]; [split; unfold rret; auto|]. unfold rthen, rret. split; intros.
    - apply (l_ext _ H). intros a. apply (l_ext _ IH). auto.
    - rewrite <- (l_plus _ H). apply (l_ext _ H). intros a. apply (l_plus _ IH).
    - rewrite <- (l_scale _ H). apply (l_ext _ H). intros a. apply (l_scale _ IH).
  Qed.

  (** draws from a list of distributions *)
  Fixpoint each (ms : list (rnd V)) (f : list V -> R) : R :=
    match ms with [] => f [] | m :: ms' => m (fun v => each ms' (fun l => f (v :: l))) end.
  Lemma each_lin ms : (forall m, In m ms -> lin m) -> lin (each ms).
  Proof.
    induction ms as [|m ms IH]; intros H; cbn [each]; [split; auto|].
    assert (Hm : lin m) by (apply H; left; reflexivity). specialize (IH (fun m' Hm' => H m' (or_intror Hm'))). split; intros.
    - apply (l_ext _ Hm). intros a. apply (l_ext _ IH). auto.
    - rewrite <- (l_plus _ Hm). apply (l_ext _ Hm). intros a. apply (l_plus _ IH).
    - rewrite <- (l_scale _ Hm). apply (l_ext _ Hm). intros a. apply (l_scale _ IH).
  Qed.
  Lemma each_app ms ms' f : (forall m, In m ms -> lin m) -> each (ms ++ ms') f = each ms (fun l => each ms' (fun l' => f (l ++ l'))).
  Proof.
    revert f. induction ms as [|m ms IH]; intros f H; cbn [app each]; [reflexivity|].
    apply (l_ext m (H m (or_introl eq_refl))). intros v. rewrite IH by (intros; apply H; right; assumption). reflexivity.
  Qed.
  Lemma each_repeat m n f : lin m -> each (repeat m n) f = draws n m f.
  Proof.
    intros H. revert f. induction n as [|n IH]; intros f; cbn [repeat each draws]; [reflexivity|]. unfold rthen, rret.
    apply (l_ext _ H). intros a. apply IH.
  Qed.
  Definition symmetric (f : list V -> R) : Prop := forall l l', Permutation l l' -> f l = f l'.
  Lemma each_perm ms ms' : Permutation ms ms' -> (forall m, In m ms -> lin m) ->
    (forall m m', In m ms -> In m' ms -> commute m m') -> forall f, symmetric f -> each ms f = each ms' f.
  Proof.
    induction 1 as [|m ms ms' HP IH|m m' ms|ms1 ms2 ms3 H1 IH1 H2 IH2]; intros Hl Hc f Hf; cbn [each].
    - reflexivity.
    - apply (l_ext m (Hl m (or_introl eq_refl))). intros v. apply IH.
      + intros m' Hm'. apply Hl. right. exact Hm'.
      + intros m1 m2 H1 H2. apply Hc; right; assumption.
      + intros l l' Hll. apply Hf. constructor. exact Hll.
    - rewrite (Hc m' m (or_introl eq_refl) (or_intror (or_introl eq_refl))).
      apply (l_ext m (Hl m (or_intror (or_introl eq_refl)))). intros v.
      apply (l_ext m' (Hl m' (or_introl eq_refl))). intros w.
      apply l_ext; [apply each_lin; intros; apply Hl; right; right; assumption|]. intros l. apply Hf. constructor.
    - rewrite IH1 by assumption. apply IH2; try assumption.
      + intros m Hm. apply Hl. apply (Permutation_in m (Permutation_sym H1)), Hm.
      + intros m m' Hm Hm'. apply Hc; apply (Permutation_in _ (Permutation_sym H1)); assumption.
  Qed.

  (** ** Independent draws are exchangeable *)
  Context (m : rnd V) (Hm : lin m) (Hc : commute m m) (d : V).
  Definition upd (r : nat -> V) (i : nat) (v : V) : nat -> V := fun j => if Nat.eq_dec j i then v else r j.
  Fixpoint over (order : list nat) (F : (nat -> V) -> R) (r : nat -> V) : R :=
    match order with [] => F r | i :: order' => m (fun v => over order' F (upd r i v)) end.
  Lemma over_ext o F : (forall r r', (forall i, r i = r' i) -> F r = F r') -> forall r r', (forall i, r i = r' i) -> over o F r = over o F r'.
  Proof.
    intros HF. induction o as [|i o IH]; intros r r' H; cbn [over]; [apply HF, H|]. apply (l_ext _ Hm). intros v. apply IH.
    intros j. unfold upd. destruct (Nat.eq_dec j i); auto.
  Qed.
  Lemma over_perm o o' F : (forall r r', (forall i, r i = r' i) -> F r = F r') -> Permutation o o' -> NoDup o -> forall r, over o F r = over o' F r.
  Proof.
    intros HF. induction 1 as [|i o o' HP IH|i j o|o1 o2 o3 H1 IH1 H2 IH2]; intros Hn r; cbn [over].
    - reflexivity.
    - inversion Hn; subst. apply (l_ext _ Hm). intros v. apply IH. assumption.
    - inversion Hn as [|? ? Hn1 Hn2]; subst. rewrite (Hc (fun a b => over o F (upd (upd r j a) i b))). apply (l_ext _ Hm). intros v. apply (l_ext _ Hm). intros w.
      apply over_ext; [exact HF|]. intros k. unfold upd. destruct (Nat.eq_dec k i), (Nat.eq_dec k j); try reflexivity. subst. exfalso. apply Hn1. left. reflexivity.
    - rewrite IH1 by assumption. apply IH2. apply (Permutation_NoDup H1), Hn.
  Qed.
  Lemma over_draws o : NoDup o -> forall (pre : list nat) f r, (forall i, In i pre -> ~ In i o) ->
    over o (fun r' => f (map r' (pre ++ o))) r = draws (length o) m (fun l => f (map r pre ++ l)).
  Proof.
    induction o as [|i o IH]; intros Hn pre f r Hp; cbn [over draws length]; [unfold rret; rewrite !app_nil_r; reflexivity|].
    inversion Hn as [|? ? Hn1 Hn2]; subst. unfold rthen, rret. apply (l_ext _ Hm). intros v.
    transitivity (over o (fun r' => f (map r' ((pre ++ [i]) ++ o))) (upd r i v)).
    { rewrite <- app_assoc. reflexivity. }
    rewrite IH; [|exact Hn2|].
    - apply l_ext; [apply lin_draws, Hm|]. intros l. rewrite map_app, <- app_assoc. cbn [map app]. f_equal. f_equal; [|].
      + apply map_ext_in. intros j Hj. unfold upd. destruct (Nat.eq_dec j i) as [->|]; [|reflexivity]. exfalso. apply (Hp i Hj). left. reflexivity.
      + unfold upd. destruct (Nat.eq_dec i i); congruence.
    - intros j Hj. apply in_app_or in Hj. destruct Hj as [Hj|[<-|[]]]; [|exact Hn1]. intros Ho. apply (Hp j Hj). right. exact Ho.
  Qed.
  Lemma draws_length n f g : (forall l, length l = n -> f l = g l) -> draws n m f = draws n m g.
  Proof.
    revert f g. induction n as [|n IH]; intros f g H; cbn [draws]; unfold rret, rthen; [apply H; reflexivity|].
    apply (l_ext _ Hm). intros v. apply IH. intros l Hl. apply H. cbn. congruence.
  Qed.
  Lemma draws_exchange n p f : Permutation p (seq 0 n) ->
    draws n m (fun xs => f (map (fun i => nth i xs d) p)) = draws n m f.
  Proof.
    intros HP. assert (Hn : NoDup p) by (apply (Permutation_NoDup (Permutation_sym HP)), seq_NoDup).
    assert (Hext : forall (F : list V -> R) (q : list nat) (r r' : nat -> V), (forall i, r i = r' i) -> F (map r q) = F (map r' q)).
    { intros F q r r' H. f_equal. apply map_ext, H. }
    pose proof (over_draws p Hn [] f (fun _ => d) ltac:(intros ? [])) as E1. cbn [app map] in E1.
    rewrite (Permutation_length HP), seq_length in E1. transitivity (draws n m (fun l => f l)); [|reflexivity]. rewrite <- E1.
    rewrite (over_perm p (seq 0 n) _ (Hext f p) HP Hn).
    pose proof (over_draws (seq 0 n) (seq_NoDup _ _) [] (fun xs => f (map (fun i => nth i xs d) p)) (fun _ => d) ltac:(intros ? [])) as E2.
    cbn [app map] in E2. rewrite seq_length in E2. transitivity (draws n m (fun l => f (map (fun i => nth i l d) p))); [reflexivity|]. rewrite <- E2.
    assert (E : forall r, f (map (fun i => nth i (map r (seq 0 n)) d) p) = f (map r p)).
    { intros r. f_equal. apply map_ext_in. intros i Hi. apply (Permutation_in _ HP) in Hi. apply in_seq in Hi.
      rewrite (nth_indep _ d (r 0%nat)) by (rewrite map_length, seq_length; lia). rewrite map_nth, seq_nth by lia. reflexivity. }
    clear - E Hm. generalize (fun _ : nat => d). generalize (seq 0 n) at 1 3. intros o. induction o as [|i o IH]; intros r; cbn [over]; [apply E|].
    apply (l_ext _ Hm). intros v. apply IH.
  Qed.
End Linear.

(** ** The permutations *)
Lemma tuples_in K n t : In t (tuples K n) <-> length t = n /\ forall x, In x t -> (x < K)%nat.
Proof.
  revert t. induction n as [|n IH]; intros t; cbn [tuples].
  - split; [intros [<-|[]]; split; [reflexivity|intros ? []]|]. intros [H _]. destruct t; [left; reflexivity|discriminate].
  - rewrite in_flat_map. split.
    + intros (k & Hk & Ht). apply in_map_iff in Ht. destruct Ht as (t' & <- & Ht'). apply in_seq in Hk. apply IH in Ht'. destruct Ht' as [H1 H2].
      split; [cbn; congruence|]. intros x [<-|Hx]; [lia|apply H2, Hx].
    + intros [H1 H2]. destruct t as [|k t]; [discriminate|]. exists k. split; [apply in_seq; specialize (H2 k (or_introl eq_refl)); lia|].
      apply in_map_iff. exists t. split; [reflexivity|]. apply IH. split; [cbn in H1; congruence|]. intros x Hx. apply H2. right. exact Hx.
Qed.
Lemma NoDup_app' {A} (l l' : list A) : NoDup l -> NoDup l' -> (forall x, In x l -> ~ In x l') -> NoDup (l ++ l').
Proof.
  induction l as [|a l IH]; intros H H' Hd; cbn [app]; [exact H'|]. inversion H; subst. constructor.
  - intros Ha. apply in_app_or in Ha. destruct Ha as [Ha|Ha]; [contradiction|]. apply (Hd a (or_introl eq_refl) Ha).
  - apply IH; [assumption..|]. intros x Hx. apply Hd. right. exact Hx.
Qed.
Lemma NoDup_map' {A B} (f : A -> B) l : NoDup l -> (forall x y, In x l -> In y l -> f x = f y -> x = y) -> NoDup (map f l).
Proof.
  induction l as [|a l IH]; intros H Hf; cbn [map]; [constructor|]. inversion H; subst. constructor.
  - intros Ha. apply in_map_iff in Ha. destruct Ha as (b & E & Hb). assert (b = a) by (apply Hf; [right; exact Hb|left; reflexivity|exact E]). subst. contradiction.
  - apply IH; [assumption|]. intros x y Hx Hy. apply Hf; right; assumption.
Qed.
Lemma tuples_nodup K n : NoDup (tuples K n).
Proof.
  induction n as [|n IH]; cbn [tuples]; [constructor; [intros []|constructor]|].
  generalize (seq_NoDup K 0). generalize (seq 0 K). intros ks. induction ks as [|k ks IHk]; intros Hk; cbn [flat_map]; [constructor|].
  inversion Hk; subst. apply NoDup_app'; [|apply IHk; assumption|].
  - apply NoDup_map'; [exact IH|]. intros x y _ _ E. congruence.
  - intros t Ht Hf. apply in_map_iff in Ht. destruct Ht as (t' & <- & _). apply in_flat_map in Hf. destruct Hf as (k' & Hk' & Hm).
    apply in_map_iff in Hm. destruct Hm as (t'' & E & _). injection E as -> _. contradiction.
Qed.
Lemma perms_in n p : In p (perms n) <-> Permutation p (seq 0 n).
Proof.
  unfold perms. rewrite filter_In, tuples_in. destruct (ListDec.NoDup_dec Nat.eq_dec p) as [H|H].
  - split.
    + intros [[H1 H2] _]. apply NoDup_Permutation_bis; [exact H|rewrite seq_length; lia|]. intros x Hx. apply in_seq. specialize (H2 x Hx). lia.
    + intros HP. split; [|reflexivity]. split; [rewrite (Permutation_length HP); apply seq_length|]. intros x Hx. apply (Permutation_in _ HP), in_seq in Hx. lia.
  - split; [intros [_ E]; discriminate|]. intros HP. exfalso. apply H. apply (Permutation_NoDup (Permutation_sym HP)), seq_NoDup.
Qed.
Lemma perms_nodup n : NoDup (perms n).
Proof. apply NoDup_filter, tuples_nodup. Qed.
Lemma rsum_perm l l' : Permutation l l' -> rsum l = rsum l'.
Proof. induction 1; rewrite ?rsum_cons; lra. Qed.

Section Shuffle.
  Context {V : Type} (d : V).
  Definition pick (xs : list V) (ix : list nat) : list V := map (fun i => nth i xs d) ix.
  Lemma shuffle_symmetric (f : list V -> R) : symmetric (fun xs => uniform (perms (length xs)) (fun ix => f (pick xs ix))).
  Proof.
    intros l l' HP. pose proof (Permutation_length HP) as Hlen. rewrite <- Hlen. set (n := length l).
    apply (proj1 (Permutation_nth _ _ d)) in HP. cbn zeta in HP. destruct HP as (_ & s & Hb & Hi & Hn). fold n in Hb, Hi, Hn.
    unfold uniform. f_equal. rewrite (rsum_ext (fun ix => f (pick l' ix)) (fun ix => f (pick l (map s ix)))).
    - rewrite <- (map_map (map s) (fun ix => f (pick l ix))). apply rsum_perm, Permutation_map. apply Permutation_sym, NoDup_Permutation_bis.
      + apply NoDup_map'; [apply perms_nodup|]. intros p q Hp Hq. apply perms_in in Hp, Hq.
        assert (HLp : forall x, In x p -> (x < n)%nat) by (intros x Hx; apply (Permutation_in _ Hp), in_seq in Hx; lia).
        assert (HLq : forall x, In x q -> (x < n)%nat) by (intros x Hx; apply (Permutation_in _ Hq), in_seq in Hx; lia).
        clear Hp Hq. revert q HLq. induction p as [|x p IH]; intros [|y q] HLq E; try discriminate; [reflexivity|]. cbn [map] in E. injection E as E1 E2.
        f_equal; [apply Hi; [apply HLp; left; reflexivity|apply HLq; left; reflexivity|exact E1]|]. apply IH; [| |exact E2].
        * intros z Hz. apply HLp. right. exact Hz.
        * intros z Hz. apply HLq. right. exact Hz.
      + rewrite map_length. lia.
      + intros p Hp. apply in_map_iff in Hp. destruct Hp as (q & <- & Hq). apply perms_in in Hq. apply perms_in.
        transitivity (map s (seq 0 n)); [apply Permutation_map, Hq|]. apply NoDup_Permutation_bis.
        * apply NoDup_map'; [apply seq_NoDup|]. intros x y Hx Hy. apply in_seq in Hx, Hy. apply Hi; lia.
        * rewrite map_length. lia.
        * intros x Hx. apply in_map_iff in Hx. destruct Hx as (y & <- & Hy). apply in_seq in Hy. apply in_seq. specialize (Hb y). lia.
    - intros ix Hix. apply perms_in in Hix. f_equal. unfold pick. rewrite map_map. apply map_ext_in. intros i Hi'. apply Hn.
      apply (Permutation_in _ Hix), in_seq in Hi'. lia.
  Qed.
End Shuffle.

Section Main.
  Context {V : Type} (integral : (V -> R) -> R) (Hint : is_integral integral) (comps : list (V -> R)) (dflt : V).
  Let K := length comps.
  Lemma weighted_lin (w : V -> R) : lin (fun f => integral (fun v => f v * w v)).
  Proof.
    split; intros.
    - apply (i_ext _ Hint). intros v. rewrite H. reflexivity.
    - rewrite <- (i_plus _ Hint). apply (i_ext _ Hint). intros v. ring.
    - rewrite <- (i_scale _ Hint). apply (i_ext _ Hint). intros v. ring.
  Qed.
  Lemma weighted_commute (w w' : V -> R) : commute (fun f => integral (fun v => f v * w v)) (fun f => integral (fun v => f v * w' v)).
  Proof.
    intros f. rewrite (i_ext _ Hint _ (fun v => integral (fun u => w v * (f v u * w' u)))).
    - rewrite (i_swap _ Hint). apply (i_ext _ Hint). intros u. rewrite Rmult_comm, <- (i_scale _ Hint). apply (i_ext _ Hint). intros v. ring.
    - intros v. rewrite (i_scale _ Hint). ring.
  Qed.
  Notation comp := (component integral comps).
  Lemma comp_lin k : lin (comp k). Proof. apply weighted_lin. Qed.

  Lemma collect_each (c : nat -> nat) n : forall k f,
    collect (fun k => draws (c k) (comp k)) k n f = each (flat_map (fun k => repeat (comp k) (c k)) (seq k n)) f.
  Proof.
    induction n as [|n IH]; intros k f; cbn [collect seq flat_map]; [reflexivity|].
    rewrite each_app by (intros m Hm; apply repeat_spec in Hm; subst; apply comp_lin).
    rewrite each_repeat by apply comp_lin. unfold rthen, rret. apply l_ext; [apply lin_draws, comp_lin|]. intros l. apply IH.
  Qed.
  Lemma flat_repeat_map {A B} (h : A -> B) (c : A -> nat) l : flat_map (fun k => repeat (h k) (c k)) l = map h (flat_map (fun k => repeat k (c k)) l).
  Proof. induction l as [|a l IH]; cbn; [reflexivity|]. rewrite map_app, IH. f_equal. induction (c a) as [|m IHm]; cbn; congruence. Qed.
  Lemma count_repeat' (k x m : nat) : count_occ Nat.eq_dec (repeat k m) x = if Nat.eq_dec k x then m else O.
  Proof. induction m as [|m IH]; cbn; [destruct (Nat.eq_dec k x); reflexivity|]. rewrite IH. destruct (Nat.eq_dec k x); reflexivity. Qed.
  Lemma counts_perm zs : (forall z, In z zs -> (z < K)%nat) ->
    Permutation (flat_map (fun k => repeat k (count_occ Nat.eq_dec zs k)) (seq 0 K)) zs.
  Proof.
    intros H. apply (Permutation_count_occ Nat.eq_dec). intros x.
    assert (E : forall l, NoDup l -> count_occ Nat.eq_dec (flat_map (fun k => repeat k (count_occ Nat.eq_dec zs k)) l) x =
      if in_dec Nat.eq_dec x l then count_occ Nat.eq_dec zs x else O).
    { induction l as [|k l IH]; intros Hn; cbn [flat_map]; [reflexivity|]. inversion Hn; subst. rewrite count_occ_app, count_repeat', IH by assumption.
      destruct (Nat.eq_dec k x) as [->|Hkx].
      - destruct (in_dec Nat.eq_dec x l); [contradiction|]. destruct (in_dec Nat.eq_dec x (x :: l)) as [|Hx]; [lia|]. exfalso. apply Hx. left. reflexivity.
      - destruct (in_dec Nat.eq_dec x l) as [Hi|Hi]; destruct (in_dec Nat.eq_dec x (k :: l)) as [Hj|Hj]; try reflexivity.
        + exfalso. apply Hj. right. exact Hi.
        + exfalso. destruct Hj as [->|Hj]; contradiction. }
    rewrite E by apply seq_NoDup. destruct (in_dec Nat.eq_dec x (seq 0 K)) as [Hi|Hi]; [reflexivity|]. symmetry. apply count_occ_not_In.
    intros Hx. apply Hi, in_seq. specialize (H x Hx). lia.
  Qed.
  Lemma draws_uniform_ext (l : list nat) n : forall f g, (forall zs, (forall z, In z zs -> In z l) -> f zs = g zs) ->
    draws n (uniform l) f = draws n (uniform l) g.
  Proof.
    induction n as [|n IH]; intros f g H; cbn [draws]; unfold rret, rthen; [apply H; intros ? []|].
    unfold uniform at 1 3. f_equal. apply rsum_ext. intros z Hz. apply IH. intros zs Hzs. apply H. intros z' [<-|Hz']; [exact Hz|apply Hzs, Hz'].
  Qed.
  Definition mix : rnd V := rthen (uniform (seq 0 K)) comp.
  Lemma draws_mix n : forall f, draws n (uniform (seq 0 K)) (fun zs => each (map comp zs) f) = draws n mix f.
  Proof.
    induction n as [|n IH]; intros f; cbn [draws]; unfold rret, rthen; [reflexivity|]. unfold mix at 1, rthen.
    apply l_ext; [apply lin_uniform|]. intros z. cbn [map each].
    transitivity (comp z (fun v => draws n (uniform (seq 0 K)) (fun zs => each (map comp zs) (fun l => f (v :: l))))).
    - symmetry.
      assert (HC : commute (comp z) (draws n (uniform (seq 0 K)))).
      { clear IH f. induction n as [|n IH]; intros g; cbn [draws]; unfold rret, rthen; [reflexivity|].
        rewrite (lin_uniform_commute (comp z) (seq 0 K) (comp_lin z) (fun v a => draws n (uniform (seq 0 K)) (fun l => g v (a :: l)))).
        apply l_ext; [apply lin_uniform|]. intros k. apply IH. }
      apply HC.
    - apply (l_ext _ (comp_lin z)). intros v. apply IH.
  Qed.
  Lemma mix_density f : mix f = integral (fun v => rsum (map (fun g => exp (g v)) comps) / INR K * f v).
  Proof.
    unfold mix, rthen, uniform. rewrite seq_length. unfold component, Rdiv. fold K.
    assert (E : forall v, rsum (map (fun g : V -> R => exp (g v)) comps) = rsum (map (fun k => exp (nth k comps (fun _ => 0) v)) (seq 0 K))).
    { intros v. unfold K. f_equal. generalize comps. intros l. induction l as [|g l IH]; cbn [map length seq]; [reflexivity|]. f_equal. rewrite <- seq_shift, map_map. exact IH. }
    rewrite (i_ext _ Hint (fun v => _ * f v) (fun v => / INR K * rsum (map (fun k => f v * exp (nth k comps (fun _ => 0) v)) (seq 0 K)))).
    - rewrite (i_scale _ Hint). rewrite Rmult_comm. f_equal. generalize (seq 0 K). intros l. induction l as [|k l IH]; cbn [map].
      + rewrite rsum_nil. symmetry. rewrite (i_ext _ Hint _ (fun _ => 0 * 0)) by (intros; cbn; ring). rewrite (i_scale _ Hint 0 (fun _ => 0)). ring.
      + rewrite rsum_cons, IH, <- (i_plus _ Hint). apply (i_ext _ Hint). intros v. rewrite rsum_cons. reflexivity.
    - intros v. rewrite E. rewrite <- (map_map (fun k => exp (nth k comps (fun _ => 0) v)) (fun x => f v * x)), rsum_scale. ring.
  Qed.
  Lemma mix_lin : lin mix.
  Proof.
    split; intros; rewrite !mix_density.
    - apply (i_ext _ Hint). intros v. rewrite H. reflexivity.
    - rewrite <- (i_plus _ Hint). apply (i_ext _ Hint). intros v. ring.
    - rewrite <- (i_scale _ Hint). apply (i_ext _ Hint). intros v. ring.
  Qed.
  Lemma mix_commute : commute mix mix.
  Proof.
    intros f. rewrite !mix_density. set (w := fun v : V => rsum (map (fun g => exp (g v)) comps) / INR K).
    pose proof (weighted_commute w w f) as E. cbv beta in E.
    rewrite (i_ext _ Hint _ (fun v => integral (fun u => f v u * w u) * w v)).
    - rewrite E. apply (i_ext _ Hint). intros u. rewrite mix_density. fold (w u). rewrite Rmult_comm. f_equal. apply (i_ext _ Hint). intros v. unfold w. ring.
    - intros v. rewrite mix_density. fold (w v). rewrite Rmult_comm. f_equal. apply (i_ext _ Hint). intros u. unfold w. ring.
  Qed.
  Lemma gmm_sample_mix n f : comps <> [] -> gmm_sample integral comps dflt n f = draws n mix f.
  Proof.
    intros Hne. unfold gmm_sample, rthen, rret. set (S := fun xs : list V => uniform (perms (length xs)) (fun ix => f (pick dflt xs ix))).
    transitivity (draws n (uniform (seq 0 K)) (fun zs => each (map comp zs) S)).
    { apply draws_uniform_ext. intros zs Hzs. fold K. change (fun xs => uniform (perms (length xs)) _) with S. rewrite collect_each, flat_repeat_map.
      assert (HP : Permutation (flat_map (fun k => repeat k (count_occ Nat.eq_dec zs k)) (seq 0 K)) zs).
      { apply counts_perm. intros z Hz. apply Hzs, in_seq in Hz. lia. }
      apply each_perm.
      - apply Permutation_map, HP.
      - intros m Hm. apply in_map_iff in Hm. destruct Hm as (k & <- & _). apply comp_lin.
      - intros m m' Hm Hm'. apply in_map_iff in Hm, Hm'. destruct Hm as (k & <- & _), Hm' as (k' & <- & _). apply weighted_commute.
      - apply shuffle_symmetric. }
    rewrite draws_mix. rewrite (draws_length mix mix_lin n S (fun xs => uniform (perms n) (fun ix => f (pick dflt xs ix)))).
    - rewrite (lin_uniform_commute (draws n mix) (perms n) (lin_draws _ n mix_lin) (fun xs ix => f (pick dflt xs ix))).
      unfold uniform. rewrite (rsum_ext _ (fun _ => draws n mix f)).
      + rewrite rsum_const. field. apply not_0_INR. intros E. apply length_zero_iff_nil in E.
        assert (H : In (seq 0 n) (perms n)) by (apply perms_in; reflexivity). rewrite E in H. destruct H.
      + intros ix Hix. apply perms_in in Hix. apply (draws_exchange mix mix_lin mix_commute dflt n ix f Hix).
    - intros l <-. reflexivity.
  Qed.
End Main.

(** C69. [sample((n,))] gives n independent values of density exp(log_density_fn)/K. *)
Theorem C69_iid_partial (V : Type) (integral : (V -> R) -> R) (comps : list (V -> R)) (dflt : V) (density : V -> R) (n : nat) (f : list V -> R) :
  is_integral integral -> comps <> [] ->
  (forall v, exists ld, gmm_log_density comps v = Ok ld /\ density v = exp ld / INR (length comps)) ->
  gmm_sample integral comps dflt n f = iid integral density n f.
Proof.
  intros Hint Hne Hd. rewrite gmm_sample_mix by assumption. revert f. induction n as [|n IH]; intros f; cbn [draws iid]; [reflexivity|].
  unfold rthen, rret. rewrite mix_density by exact Hint. apply (i_ext _ Hint). intros v. destruct (Hd v) as (ld & E & ->).
  destruct (C51_mixture V comps v Hne) as (ld' & E' & E2). rewrite E in E'. injection E' as <-. rewrite E2. f_equal. apply IH.
Qed.
Print Assumptions C69_iid_partial.
(** C69. The result has the requested sample shape only when that has one dimension: any other
    sample shape is lost. *)
Theorem C69_shape (s : list nat) : gmm_sample_shape s = s <-> length s = 1%nat.
Proof.
  split.
  - intros E. apply (f_equal (@length nat)) in E. unfold gmm_sample_shape in E.
    destruct s as [|a [|b s]]; [discriminate|reflexivity|].
    assert (H : length (removelast (b :: s)) = length s).
    { clear. revert b. induction s as [|c s IH]; intros b; [reflexivity|]. cbn [removelast length]. f_equal. apply IH. }
    change (S (length (removelast (b :: s))) = S (S (length s))) in E. lia.
  - destruct s as [|a [|b s]]; intros H; try discriminate. unfold gmm_sample_shape. cbn. f_equal. lia.
Qed.
Print Assumptions C69_shape.
(** sample((2, 3)) gives 6 values in a row; sample((2, 3, 4)) gives 72 values instead of 24. *)
Theorem C69_shape_refuted : gmm_sample_shape [2; 3]%nat = [6]%nat /\ gmm_sample_shape [2; 3; 4]%nat = [24; 3]%nat /\
  (shape_numel (gmm_sample_shape [2; 3; 4]) <> shape_numel [2; 3; 4])%nat.
Proof. repeat split; discriminate. Qed.
Print Assumptions C69_shape_refuted.

(** The hypotheses are met: three values, two different components. *)
Definition three (f : nat -> R) : R := rsum (map f (seq 0 3)).
Lemma weighted_sum_integral (V : Type) (w : V -> R) (l : list V) : is_integral (fun f => rsum (map (fun v => w v * f v) l)).
Proof.
  split; intros.
  - apply rsum_ext. intros v _. rewrite H. reflexivity.
  - rewrite <- rsum_plus. apply rsum_ext. intros v _. ring.
  - rewrite <- rsum_scale, map_map. apply rsum_ext. intros v _. ring.
  - assert (E : forall k k' (g : V -> V -> R), rsum (map (fun v => rsum (map (g v) k')) k) = rsum (map (fun u => rsum (map (fun v => g v u) k)) k')).
    { intros k k' g. induction k as [|v k IH]; cbn [map].
      - rewrite rsum_nil. transitivity (rsum (map (fun _ : V => 0) k')); [rewrite rsum_const; ring|apply rsum_ext; reflexivity].
      - rewrite rsum_cons, IH, <- rsum_plus. apply rsum_ext. intros u _. symmetry. apply rsum_cons. }
    transitivity (rsum (map (fun v => rsum (map (fun u => w v * (w u * f v u)) l)) l)).
    { apply rsum_ext. intros v _. rewrite <- rsum_scale, map_map. reflexivity. }
    rewrite E. apply rsum_ext. intros u _. rewrite <- rsum_scale, map_map. apply rsum_ext. intros v _. ring.
Qed.
Lemma three_integral : is_integral three.
Proof.
  pose proof (weighted_sum_integral nat (fun _ => 1) (seq 0 3)) as [H1 H2 H3 H4].
  assert (E : forall f, three f = rsum (map (fun v => 1 * f v) (seq 0 3))) by (intros f; apply rsum_ext; intros; ring).
  split; intros; rewrite ?E; auto. rewrite (rsum_ext _ (fun v => 1 * rsum (map (fun w => 1 * f v w) (seq 0 3)))) by (intros; rewrite E; reflexivity).
  rewrite H4. apply rsum_ext. intros. rewrite E. reflexivity.
Qed.
Definition comp_a (v : nat) : R := match v with O => ln (1/2) | S O => ln (1/4) | _ => ln (1/4) end.
Definition comp_b (v : nat) : R := match v with O => ln (1/8) | S O => ln (3/8) | _ => ln (1/2) end.
Example C69_case : forall n f,
  gmm_sample three [comp_a; comp_b] 0%nat n f =
  iid three (fun v => (exp (comp_a v) + exp (comp_b v)) / 2) n f.
Proof.
  intros n f. apply C69_iid_partial; [apply three_integral|discriminate|]. intros v.
  destruct (C51_mixture nat [comp_a; comp_b] v ltac:(discriminate)) as (ld & E & E2). exists ld. split; [exact E|]. rewrite E2. cbn. field.
Qed.
(** the probability that the first value drawn is 0 *)
Example C69_first_is_zero : gmm_sample three [comp_a; comp_b] 0%nat 2 (fun l => match l with O :: _ => 1 | _ => 0 end) = 5/16.
Proof.
  rewrite C69_case. cbn. rewrite !exp_ln by lra. field.
Qed.
