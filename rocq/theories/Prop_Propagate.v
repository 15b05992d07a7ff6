(** Property C49: Gaussian propagation. *)
From Coq Require Import Lra Lia.
From Verif Require Import Thm_Propagate.
Open Scope R_scope.

(** ** The returned normal has the moments of the joint, for every dimension
    x has the moments of N; the noise e has mean 0 and covariance B and is uncorrelated with
    x; y = F x + t + e.  Then propagate returns the moments of (x, y), of (y, x) with
    reverse_order, and of y alone with marginalize. *)
Theorem C49_moments : forall {O} (E : (O -> R) -> R) (HE : expectation E) n k N F t B (x e : nat -> O -> R),
  shapes n k N F t B -> has_moments E n x N ->
  (forall i, (i < k)%nat -> E (e i) = 0) ->
  (forall i j, (i < k)%nat -> (j < k)%nat -> covar E (e i) (e j) = ment B i j) ->
  (forall i j, (i < n)%nat -> (j < k)%nat -> covar E (x i) (e j) = 0) ->
  let y i w := sumn n (fun j => ment F i j * x j w) + vat t i + e i w in
  (exists J, propagate N F t B false false = Ok J /\ has_moments E (n + k) (followed_by n x y) J) /\
  (exists J, propagate N F t B false true = Ok J /\ has_moments E (k + n) (followed_by k y x) J) /\
  (forall reverse_order, exists J, propagate N F t B true reverse_order = Ok J /\ has_moments E k y J).
Proof.
  intros O E HE n k N F t B x e HS Hx He0 He Hxe y.
  pose proof (py_mean n k N F t E HE x e Hx He0) as Hm.
  pose proof (py_x n k N F t E HE x e Hx Hxe) as Hyx.
  pose proof (py_py n k N F t B E HE x e Hx He Hxe) as Hyy.
  assert (Hy : y = py n F t x e) by reflexivity. rewrite Hy.
  destruct Hx as (X1 & X2 & X3 & X4 & X5).
  split; [|split].
  - destruct (propagate_blocks n k N F t B HS false false) as (J & HJ & Hd). cbn zeta in Hd. destruct Hd as (D1 & D2 & D3 & D4 & D5).
    exists J. split; [exact HJ|]. repeat (split; [assumption|]). unfold followed_by. split.
    + intros i Hi. rewrite D4 by exact Hi. destruct (Nat.ltb_spec i n); [apply X4; assumption|apply Hm; lia].
    + intros i j Hi Hj. rewrite D5 by assumption. unfold block. destruct (Nat.ltb_spec i n), (Nat.ltb_spec j n).
      * apply X5; assumption.
      * rewrite (covar_sym E HE). apply Hyx; lia.
      * apply Hyx; lia.
      * apply Hyy; lia.
  - destruct (propagate_blocks n k N F t B HS false true) as (J & HJ & Hd). cbn zeta in Hd. destruct Hd as (D1 & D2 & D3 & D4 & D5).
    rewrite (Nat.add_comm k n).
    exists J. split; [exact HJ|]. repeat (split; [assumption|]). unfold followed_by. split.
    + intros i Hi. rewrite D4 by exact Hi. destruct (Nat.ltb_spec i k); [apply Hm; assumption|apply X4; lia].
    + intros i j Hi Hj. rewrite D5 by assumption. unfold block. destruct (Nat.ltb_spec i k), (Nat.ltb_spec j k).
      * apply Hyy; assumption.
      * apply Hyx; lia.
      * rewrite (covar_sym E HE). apply Hyx; lia.
      * apply X5; lia.
  - intros rv. destruct (propagate_blocks n k N F t B HS true rv) as (J & HJ & Hd). cbn zeta in Hd. destruct Hd as (D1 & D2 & D3 & D4 & D5).
    exists J. split; [exact HJ|]. repeat (split; [assumption|]). split.
    + intros i Hi. rewrite D4 by exact Hi. apply Hm, Hi.
    + intros i j Hi Hj. rewrite D5 by assumption. apply Hyy; assumption.
Qed.
Print Assumptions C49_moments.

(** ** reverse_order only swaps the two blocks
    Position i of (x, y) is position [swap i] of (y, x). *)
Definition swap (n k i : nat) : nat := if (i <? n)%nat then (k + i)%nat else (i - n)%nat.
Theorem C49_reverse_order : forall n k N F t B, shapes n k N F t B ->
  exists J J', propagate N F t B false false = Ok J /\ propagate N F t B false true = Ok J' /\
    vlen (loc J') = vlen (loc J) /\ mrows (cov J') = mrows (cov J) /\ mcols (cov J') = mcols (cov J) /\
    (forall i, (i < n + k)%nat -> vat (loc J') (swap n k i) = vat (loc J) i) /\
    (forall i j, (i < n + k)%nat -> (j < n + k)%nat -> ment (cov J') (swap n k i) (swap n k j) = ment (cov J) i j).
Proof.
  intros n k N F t B HS.
  destruct (propagate_blocks n k N F t B HS false false) as (J & HJ & Hd). cbn zeta in Hd. destruct Hd as (D1 & D2 & D3 & D4 & D5).
  destruct (propagate_blocks n k N F t B HS false true) as (J' & HJ' & Hd). cbn zeta in Hd. destruct Hd as (D1' & D2' & D3' & D4' & D5').
  exists J, J'. split; [exact HJ|]. split; [exact HJ'|]. split; [congruence|]. split; [congruence|]. split; [congruence|].
  assert (Hsw : forall i, (i < n + k)%nat -> (swap n k i < n + k)%nat) by (intros i Hi; unfold swap; destruct (Nat.ltb_spec i n); lia).
  split.
  - intros i Hi. rewrite D4 by exact Hi. rewrite D4' by (apply Hsw, Hi). unfold swap.
    destruct (Nat.ltb_spec i n).
    + destruct (Nat.ltb_spec (k + i) k); [lia|]. f_equal. lia.
    + destruct (Nat.ltb_spec (i - n) k); [reflexivity|lia].
  - intros i j Hi Hj. rewrite D5 by assumption. rewrite D5' by (apply Hsw; assumption). unfold swap, block.
    destruct (Nat.ltb_spec i n), (Nat.ltb_spec j n);
    repeat match goal with |- context [(?a <? k)%nat] => destruct (Nat.ltb_spec a k); try lia end;
    repeat match goal with |- context [(k + ?a - k)%nat] => replace (k + a - k)%nat with a by lia end; reflexivity.
Qed.
Print Assumptions C49_reverse_order.

(** ** The result is symmetric, positive semidefinite and positive definite when the inputs are *)
Theorem C49_symmetric : forall n k N F t B marginalize reverse_order J, shapes n k N F t B ->
  propagate N F t B marginalize reverse_order = Ok J ->
  symmetric (cov N) -> symmetric B -> symmetric (cov J).
Proof.
  intros n k N F t B mg rv J HS HJ HA HB.
  destruct (propagate_blocks n k N F t B HS mg rv) as (J' & HJ' & Hd). rewrite HJ in HJ'. injection HJ' as <-.
  cbn zeta in Hd. destruct Hd as (D1 & D2 & D3 & _ & D5). destruct HS as (H1 & H2 & H3 & H4 & H5 & H6 & H7 & H8).
  destruct HA as [_ HA], HB as [_ HB]. rewrite H2 in HA. rewrite H7 in HB.
  split; [congruence|]. rewrite D2. intros i j Hi Hj. rewrite !D5 by assumption.
  assert (HSS : forall i j, (i < k)%nat -> (j < k)%nat -> pS n N F B i j = pS n N F B j i).
  { intros a b Ha Hb. unfold pS. rewrite (HB a b Ha Hb). f_equal. unfold pFA.
    rewrite (sumn_ext n _ (fun l => sumn n (fun l0 => ment F a l * (ment F b l0 * ment (cov N) l0 l)))) by (intros; rewrite sumn_scale; reflexivity).
    rewrite sumn_swap. apply sumn_ext. intros l Hl. rewrite <- sumn_scale. apply sumn_ext. intros l' Hl'. rewrite (HA l l') by assumption. ring. }
  destruct mg; [apply HSS; assumption|]. unfold block.
  destruct rv.
  - destruct (Nat.ltb_spec i k), (Nat.ltb_spec j k); try reflexivity; [apply HSS; assumption|apply HA; lia].
  - destruct (Nat.ltb_spec i n), (Nat.ltb_spec j n); try reflexivity; [apply HA; assumption|apply HSS; lia].
Qed.
Print Assumptions C49_symmetric.

Theorem C49_semidefinite : forall n k N F t B marginalize reverse_order J, shapes n k N F t B ->
  propagate N F t B marginalize reverse_order = Ok J ->
  symmetric (cov N) -> semidefinite (cov N) -> semidefinite B -> semidefinite (cov J).
Proof.
  intros n k N F t B mg rv J HS HJ HA PA PB u. rewrite (propagate_quad n k N F t B HS mg rv J u HA HJ).
  destruct mg; [|destruct rv]; match goal with |- _ <= quad _ ?a + quad _ ?b => pose proof (PA a); pose proof (PB b); lra end.
Qed.
Print Assumptions C49_semidefinite.

(** Positive definite inputs give positive definite covariances: the check that the
    constructor of MultivariateNormal makes (it factorises the matrix) cannot fail. *)
Theorem C49_definite : forall n k N F t B marginalize reverse_order J, shapes n k N F t B ->
  propagate N F t B marginalize reverse_order = Ok J ->
  symmetric (cov N) -> definite (cov N) -> definite B -> definite (cov J).
Proof.
  intros n k N F t B mg rv J HS HJ HA PA PB u Hu. rewrite (propagate_quad n k N F t B HS mg rv J u HA HJ).
  destruct (propagate_blocks n k N F t B HS mg rv) as (J' & HJ' & Hd). rewrite HJ in HJ'. injection HJ' as <-.
  cbn zeta in Hd. destruct Hd as (_ & D2 & _). rewrite D2 in Hu. clear D2.
  destruct HS as (H1 & H2 & H3 & H4 & H5 & H6 & H7 & H8).
  assert (Hdec : forall (m : nat) (f : nat -> R), (exists i, (i < m)%nat /\ f i <> 0) \/ (forall i, (i < m)%nat -> f i = 0)).
  { intros m f. induction m as [|m [(i & Hi & Hf)|IH]]; [right; lia|left; exists i; auto|].
    destruct (Req_dec (f m) 0) as [E|Hne]; [right|left; exists m; auto]. intros i Hi.
    destruct (Nat.eq_dec i m) as [->|]; [exact E|apply IH; lia]. }
  assert (HAs : forall a, 0 <= quad (cov N) a).
  { intros a. destruct (Hdec (mrows (cov N)) a) as [H|H]; [left; apply PA, H|right; rewrite (quad_zero _ a); auto]. }
  assert (Hjoint : forall a b, ((exists i, (i < n)%nat /\ a i <> 0) \/ (exists i, (i < k)%nat /\ b i <> 0)) ->
    0 < quad (cov N) (through k F a b) + quad B b).
  { intros a b H. destruct (Hdec k b) as [Hb|Hb].
    - pose proof (HAs (through k F a b)). assert (0 < quad B b) by (apply PB; rewrite H7; exact Hb). lra.
    - rewrite (quad_zero B b) by (rewrite H7; exact Hb). destruct H as [(i & Hi & Ha)|(i & Hi & Hne)]; [|exfalso; apply Hne, Hb, Hi].
      assert (0 < quad (cov N) (through k F a b)); [|lra]. apply PA. rewrite H2. exists i. split; [exact Hi|].
      unfold through. rewrite (sumn_ext k _ (fun _ => 0)), sumn_zero; [lra|]. intros j Hj. rewrite (Hb j Hj). ring. }
  destruct mg; [|destruct rv]; apply Hjoint; destruct Hu as (i & Hi & Hu).
  - right. exists i. auto.
  - destruct (Nat.lt_ge_cases i k); [right; exists i; auto|]. left. exists (i - k)%nat. split; [lia|]. replace (k + (i - k))%nat with i by lia. exact Hu.
  - destruct (Nat.lt_ge_cases i n); [left; exists i; auto|]. right. exists (i - n)%nat. split; [lia|]. replace (n + (i - n))%nat with i by lia. exact Hu.
Qed.
Print Assumptions C49_definite.

(** ** an instance: two fair coins x, e in {-1, 1}; y = 3 x + 5 + 2 e *)
Definition coins : Type := bool * bool.
Definition sgn (b : bool) : R := if b then 1 else -1.
Definition coinE (X : coins -> R) : R := (X (true, true) + X (true, false) + X (false, true) + X (false, false)) / 4.
Definition ex_N : mvn := mkMVN (mkVec 1 (fun _ => 0)) (mkMat 1 1 (fun _ _ => 1)).
Definition ex_F : mat := mkMat 1 1 (fun _ _ => 3).
Definition ex_t : vec := mkVec 1 (fun _ => 5).
Definition ex_B : mat := mkMat 1 1 (fun _ _ => 4).
Example C49_hypotheses :
  expectation coinE /\ shapes 1 1 ex_N ex_F ex_t ex_B /\ has_moments coinE 1 (fun _ w => sgn (fst w)) ex_N /\
  (forall i, (i < 1)%nat -> coinE ((fun _ w => 2 * sgn (snd w)) i) = 0) /\
  (forall i j, (i < 1)%nat -> (j < 1)%nat -> covar coinE (fun w => 2 * sgn (snd w)) (fun w => 2 * sgn (snd w)) = ment ex_B i j) /\
  (forall i j, (i < 1)%nat -> (j < 1)%nat -> covar coinE (fun w => sgn (fst w)) (fun w => 2 * sgn (snd w)) = 0) /\
  symmetric (cov ex_N) /\ definite (cov ex_N) /\ definite ex_B.
Proof.
  assert (Hd : forall c : R, 0 < c -> definite (mkMat 1 1 (fun _ _ => c))).
  { intros c Hc u (i & Hi & Hu). cbn in Hi. assert (i = 0)%nat by lia. subst i. unfold quad. cbn. 
    assert (0 < u 0%nat * u 0%nat) by (apply Rsqr_pos_lt in Hu; exact Hu). nra. }
  split; [|split; [|split; [|split; [|split; [|split; [|split; [|split]]]]]]].
  - constructor; unfold coinE; intros; [rewrite !H; reflexivity|lra..].
  - repeat split.
  - repeat split; intros; unfold covar, coinE, sgn; cbn; lra.
  - intros; unfold coinE, sgn; cbn; lra.
  - intros; unfold covar, coinE, sgn; cbn; lra.
  - intros; unfold covar, coinE, sgn; cbn; lra.
  - split; reflexivity.
  - apply Hd. lra.
  - apply Hd. lra.
Qed.
(** the joint covariance is [[1, 3], [3, 13]] *)
Example C49_case : exists J, propagate ex_N ex_F ex_t ex_B false false = Ok J /\ vat (loc J) 1%nat = 5 /\
  ment (cov J) 0%nat 0%nat = 1 /\ ment (cov J) 0%nat 1%nat = 3 /\ ment (cov J) 1%nat 0%nat = 3 /\ ment (cov J) 1%nat 1%nat = 13.
Proof. eexists. split; [reflexivity|]. cbn. repeat split; lra. Qed.
