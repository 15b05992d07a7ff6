(** Lemmas for C49. *)
From Coq Require Import Lra Lia.
From Verif Require Export SpecPropagate.
Open Scope R_scope.

(** ** Sums *)
Lemma sumn_ext n f g : (forall i, (i < n)%nat -> f i = g i) -> sumn n f = sumn n g.
Proof. intros H. induction n as [|n IH]; [reflexivity|]. cbn. rewrite IH by (intros; apply H; lia). rewrite H by lia. reflexivity. Qed.
Lemma sumn_plus n f g : sumn n (fun i => f i + g i) = sumn n f + sumn n g.
Proof. induction n as [|n IH]; cbn; [lra|]. rewrite IH. ring. Qed.
Lemma sumn_scale n c f : sumn n (fun i => c * f i) = c * sumn n f.
Proof. induction n as [|n IH]; cbn; [ring|]. rewrite IH. ring. Qed.
Lemma sumn_zero n : sumn n (fun _ => 0) = 0.
Proof. induction n as [|n IH]; cbn; [reflexivity|]. rewrite IH. ring. Qed.
Lemma sumn_swap n m f : sumn n (fun i => sumn m (fun j => f i j)) = sumn m (fun j => sumn n (fun i => f i j)).
Proof. induction n as [|n IH]; cbn; [symmetry; apply sumn_zero|]. rewrite IH, <- sumn_plus. reflexivity. Qed.
Lemma sumn_app n m f : sumn (n + m) f = sumn n f + sumn m (fun i => f (n + i)%nat).
Proof. induction m as [|m IH]; cbn; [rewrite Nat.add_0_r; ring|]. rewrite Nat.add_succ_r. cbn. rewrite IH. ring. Qed.

(** ** What propagate returns *)
Lemma bdim_same n : bdim n n = Ok n.
Proof. unfold bdim. rewrite Nat.eqb_refl. reflexivity. Qed.
Lemma bix_lt n i : (i < n)%nat -> bix n i = i.
Proof. unfold bix. intros H. destruct (Nat.eqb_spec n 1); [lia|reflexivity]. Qed.

(** the block matrix [[P, Q], [Q', S]] with P of size n x n *)
Definition block (n : nat) (P Q Q' S : nat -> nat -> R) (i j : nat) : R :=
  if (i <? n)%nat then if (j <? n)%nat then P i j else Q i (j - n)%nat
  else if (j <? n)%nat then Q' (i - n)%nat j else S (i - n)%nat (j - n)%nat.

Section Blocks.
  Variables (n k : nat) (N : mvn) (F : mat) (t : vec) (B : mat).
  Hypothesis HS : shapes n k N F t B.
  Definition pb (i : nat) : R := vat t i + sumn n (fun j => ment F i j * vat (loc N) j).
  Definition pFA (i j : nat) : R := sumn n (fun l => ment F i l * ment (cov N) l j).
  Definition pS (i j : nat) : R := ment B i j + sumn n (fun l => ment F i l * pFA j l).

  Lemma propagate_blocks mg rv : exists J, propagate N F t B mg rv = Ok J /\
    let d := if mg then k else (n + k)%nat in
    vlen (loc J) = d /\ mrows (cov J) = d /\ mcols (cov J) = d /\
    (forall i, (i < d)%nat -> vat (loc J) i =
       if mg then pb i else if rv then if (i <? k)%nat then pb i else vat (loc N) (i - k)
       else if (i <? n)%nat then vat (loc N) i else pb (i - n)) /\
    (forall i j, (i < d)%nat -> (j < d)%nat -> ment (cov J) i j =
       if mg then pS i j
       else if rv then block k pS pFA (fun i j => pFA j i) (ment (cov N)) i j
       else block n (ment (cov N)) (fun i j => pFA j i) pFA pS i j).
  Proof.
    destruct HS as (H1 & H2 & H3 & H4 & H5 & H6 & H7 & H8). unfold propagate.
    unfold matvec. rewrite H5, H1, Nat.eqb_refl. cbn [rbind].
    unfold vadd. cbn [vlen]. rewrite H4, H6, bdim_same. cbn [rmap rbind].
    unfold matmul at 1. rewrite H5, H2, Nat.eqb_refl. cbn [rbind].
    unfold matmul at 1. unfold transpose at 1. cbn [mrows mcols]. rewrite H5, H3, Nat.eqb_refl. cbn [rbind].
    unfold madd. cbn [mrows mcols transpose ment]. rewrite H7, H8, H4, !bdim_same. cbn [rbind rmap].
    assert (Hb : forall i, (i < k)%nat -> vat t (bix k i) + sumn n (fun j => ment F (bix k i) j * vat (loc N) j) = pb i).
    { intros i Hi. rewrite bix_lt by exact Hi. reflexivity. }
    assert (Hs : forall i j, (i < k)%nat -> (j < k)%nat ->
      ment B (bix k i) (bix k j) + sumn n (fun l => ment F (bix k i) l * sumn n (fun l0 => ment F (bix k j) l0 * ment (cov N) l0 l)) = pS i j).
    { intros i j Hi Hj. rewrite !bix_lt by assumption. reflexivity. }
    destruct mg; [|destruct rv].
    - unfold mk_mvn. cbn [mrows mcols vlen]. rewrite Nat.eqb_refl. cbn [andb]. eexists. split; [reflexivity|].
      cbn. repeat (split; [reflexivity|]). split; assumption.
    - unfold cat1. cbn [mrows mcols ment]. rewrite Nat.eqb_refl. cbn [rbind]. rewrite ?H2, ?H3, Nat.eqb_refl. cbn [rbind].
      unfold cat0. cbn [mrows mcols ment]. rewrite Nat.eqb_refl. cbn [rbind].
      unfold mk_mvn. cbn [mrows mcols vlen vcat]. rewrite H1, Nat.eqb_refl. cbn [andb]. rewrite Nat.eqb_refl.
      eexists. split; [reflexivity|]. cbv zeta. cbn [loc cov vlen vat mrows mcols ment vcat transpose]. repeat (split; [lia|]). split.
      + intros i Hi. destruct (Nat.ltb_spec i k); [apply Hb; assumption|reflexivity].
      + intros i j Hi Hj. unfold block. destruct (Nat.ltb_spec i k), (Nat.ltb_spec j k); try reflexivity. apply Hs; assumption.
    - unfold cat1. cbn [mrows mcols ment]. rewrite ?H2, ?H3, Nat.eqb_refl. cbn [rbind]. rewrite Nat.eqb_refl. cbn [rbind].
      unfold cat0. cbn [mrows mcols ment]. rewrite Nat.eqb_refl. cbn [rbind].
      unfold mk_mvn. cbn [mrows mcols vlen vcat]. rewrite H1, Nat.eqb_refl. cbn [andb mcols transpose]. rewrite ?Nat.eqb_refl. cbv beta iota.
      eexists. split; [reflexivity|]. cbv zeta. cbn [loc cov vlen vat mrows mcols ment vcat transpose]. repeat (split; [lia|]). split.
      + intros i Hi. rewrite H1. destruct (Nat.ltb_spec i n); [reflexivity|apply Hb; lia].
      + intros i j Hi Hj. unfold block. rewrite ?H2, ?H3. destruct (Nat.ltb_spec i n), (Nat.ltb_spec j n); try reflexivity. apply Hs; lia.
  Qed.

  (** *** Moments *)
  Section Moments.
    Context {O : Type} (E : (O -> R) -> R) (HE : expectation E).
    Lemma E_zero : E (fun _ => 0) = 0.
    Proof. rewrite (E_ext E HE _ (fun w => 0 * (fun _ => 1) w)) by (intros; ring). rewrite (E_scale E HE). ring. Qed.
    Lemma E_const c : E (fun _ => c) = c.
    Proof. rewrite (E_ext E HE _ (fun w => c * (fun _ => 1) w)) by (intros; ring). rewrite (E_scale E HE), (E_one E HE). ring. Qed.
    Lemma E_sum m (X : nat -> O -> R) : E (fun w => sumn m (fun i => X i w)) = sumn m (fun i => E (X i)).
    Proof.
      induction m as [|m IH]; cbn; [apply E_zero|].
      rewrite (E_add E HE (fun w => sumn m (fun i => X i w)) (X m)), IH. reflexivity.
    Qed.
    Lemma covar_ext X X' Y Y' : (forall w, X w = X' w) -> (forall w, Y w = Y' w) -> covar E X Y = covar E X' Y'.
    Proof.
      intros H1 H2. unfold covar. rewrite (E_ext E HE _ _ H1), (E_ext E HE _ _ H2).
      rewrite (E_ext E HE _ (fun w => X' w * Y' w)); [reflexivity|]. intros w. rewrite H1, H2. reflexivity.
    Qed.
    Lemma covar_sym X Y : covar E X Y = covar E Y X.
    Proof. unfold covar. rewrite (E_ext E HE _ (fun w => Y w * X w)) by (intros; ring). ring. Qed.
    Lemma covar_add X X' Y : covar E (fun w => X w + X' w) Y = covar E X Y + covar E X' Y.
    Proof.
      unfold covar. rewrite (E_add E HE). rewrite (E_ext E HE _ (fun w => (fun w => X w * Y w) w + (fun w => X' w * Y w) w)) by (intros; ring).
      rewrite (E_add E HE). ring.
    Qed.
    Lemma covar_const c Y : covar E (fun _ => c) Y = 0.
    Proof. unfold covar. rewrite E_const, (E_scale E HE). ring. Qed.
    Lemma covar_scale c X Y : covar E (fun w => c * X w) Y = c * covar E X Y.
    Proof.
      unfold covar. rewrite (E_scale E HE). rewrite (E_ext E HE _ (fun w => c * (fun w => X w * Y w) w)) by (intros; ring).
      rewrite (E_scale E HE). ring.
    Qed.
    Lemma covar_sum m (X : nat -> O -> R) Y : covar E (fun w => sumn m (fun i => X i w)) Y = sumn m (fun i => covar E (X i) Y).
    Proof.
      induction m as [|m IH]; cbn; [apply covar_const|].
      rewrite (covar_add (fun w => sumn m (fun i => X i w)) (X m)), IH. reflexivity.
    Qed.

    Variables (x e : nat -> O -> R).
    Hypothesis Hx : has_moments E n x N.
    Hypothesis He0 : forall i, (i < k)%nat -> E (e i) = 0.
    Hypothesis He : forall i j, (i < k)%nat -> (j < k)%nat -> covar E (e i) (e j) = ment B i j.
    Hypothesis Hxe : forall i j, (i < n)%nat -> (j < k)%nat -> covar E (x i) (e j) = 0.
    Definition py (i : nat) (w : O) : R := sumn n (fun j => ment F i j * x j w) + vat t i + e i w.

    Lemma py_mean i : (i < k)%nat -> E (py i) = pb i.
    Proof.
      intros Hi. unfold py, pb. rewrite (E_add E HE (fun w => sumn n (fun j => ment F i j * x j w) + vat t i) (e i)).
      rewrite (E_add E HE (fun w => sumn n (fun j => ment F i j * x j w)) (fun _ => vat t i)), E_const, He0 by exact Hi.
      rewrite (E_sum n (fun j w => ment F i j * x j w)).
      rewrite (sumn_ext n _ (fun j => ment F i j * vat (loc N) j)); [ring|].
      intros j Hj. rewrite (E_scale E HE). f_equal. apply Hx, Hj.
    Qed.
    Lemma py_any i Z : covar E (py i) Z = sumn n (fun j => ment F i j * covar E (x j) Z) + covar E (e i) Z.
    Proof.
      unfold py. rewrite (covar_add (fun w => sumn n (fun j => ment F i j * x j w) + vat t i) (e i)).
      rewrite (covar_add (fun w => sumn n (fun j => ment F i j * x j w)) (fun _ => vat t i)), covar_const.
      rewrite (covar_sum n (fun j w => ment F i j * x j w)).
      rewrite (sumn_ext n _ (fun j => ment F i j * covar E (x j) Z)); [ring|]. intros j _. apply covar_scale.
    Qed.
    Lemma py_x i j : (i < k)%nat -> (j < n)%nat -> covar E (py i) (x j) = pFA i j.
    Proof.
      intros Hi Hj. rewrite py_any, (covar_sym (e i)), Hxe by assumption. unfold pFA.
      rewrite (sumn_ext n _ (fun l => ment F i l * ment (cov N) l j)); [ring|]. intros l Hl. f_equal. apply Hx; assumption.
    Qed.
    Lemma py_py i j : (i < k)%nat -> (j < k)%nat -> covar E (py i) (py j) = pS i j.
    Proof.
      intros Hi Hj. rewrite py_any, (covar_sym (e i)), py_any, (covar_sym (e j) (e i)), He by assumption. unfold pS.
      rewrite (sumn_ext n _ (fun l => ment F i l * pFA j l)).
      - rewrite (sumn_ext n (fun j0 => ment F j j0 * covar E (x j0) (e i)) (fun _ => 0)), sumn_zero; [ring|].
        intros l Hl. rewrite Hxe by assumption. ring.
      - intros l Hl. f_equal. rewrite covar_sym. apply py_x; assumption.
    Qed.
  End Moments.

  (** *** Quadratic forms *)
  Definition through (u v : nat -> R) (j : nat) : R := u j + sumn k (fun i => v i * ment F i j).
  Lemma block_quad u v : symmetric (cov N) ->
    quad (cov N) (through u v) + quad B v =
    sumn n (fun i => sumn n (fun j => u i * ment (cov N) i j * u j)) +
    sumn n (fun i => sumn k (fun j => u i * pFA j i * v j)) +
    sumn k (fun i => sumn n (fun j => v i * pFA i j * u j)) +
    sumn k (fun i => sumn k (fun j => v i * pS i j * v j)).
  Proof.
    destruct HS as (H1 & H2 & H3 & H4 & H5 & H6 & H7 & H8). intros [_ Hsym]. rewrite H2 in Hsym. unfold quad. rewrite H2, H7.
    set (A := ment (cov N)) in *. set (g := fun j => sumn k (fun i => v i * ment F i j)).
    assert (E1 : sumn n (fun i => sumn n (fun j => through u v i * A i j * through u v j)) =
      sumn n (fun i => sumn n (fun j => u i * A i j * u j)) + sumn n (fun i => sumn n (fun j => u i * A i j * g j)) +
      sumn n (fun i => sumn n (fun j => g i * A i j * u j)) + sumn n (fun i => sumn n (fun j => g i * A i j * g j))).
    { rewrite <- !sumn_plus. apply sumn_ext. intros i _. rewrite <- !sumn_plus. apply sumn_ext. intros j _. unfold through. fold (g i) (g j). ring. }
    rewrite E1. clear E1.
    assert (E2 : sumn n (fun i => sumn n (fun j => u i * A i j * g j)) = sumn n (fun i => sumn k (fun j => u i * pFA j i * v j))).
    { apply sumn_ext. intros i Hi. unfold g, pFA. fold A.
      rewrite (sumn_ext n _ (fun j => sumn k (fun l => u i * A i j * (v l * ment F l j)))) by (intros j _; rewrite sumn_scale; reflexivity).
      rewrite sumn_swap. apply sumn_ext. intros l _.
      rewrite (sumn_ext n _ (fun j => (u i * v l) * (ment F l j * A j i))).
      - rewrite sumn_scale. ring.
      - intros j Hj. rewrite (Hsym i j Hi Hj). ring. }
    assert (E3 : sumn n (fun i => sumn n (fun j => g i * A i j * u j)) = sumn k (fun i => sumn n (fun j => v i * pFA i j * u j))).
    { rewrite (sumn_swap k n). rewrite (sumn_swap n n). apply sumn_ext. intros j _. unfold g, pFA. fold A.
      rewrite (sumn_ext n _ (fun i => sumn k (fun l => A i j * u j * (v l * ment F l i)))).
      - rewrite sumn_swap. apply sumn_ext. intros l _. rewrite (sumn_ext n _ (fun i => (v l * u j) * (ment F l i * A i j))) by (intros; ring).
        rewrite sumn_scale. ring.
      - intros i _. rewrite sumn_scale. ring. }
    assert (E4 : sumn n (fun i => sumn n (fun j => g i * A i j * g j)) + sumn k (fun i => sumn k (fun j => v i * ment B i j * v j)) =
      sumn k (fun i => sumn k (fun j => v i * pS i j * v j))).
    { assert (E5 : sumn n (fun i => sumn n (fun j => g i * A i j * g j)) =
        sumn k (fun i => sumn k (fun j => v i * (sumn n (fun l => ment F i l * pFA j l)) * v j))).
      { assert (G : forall j, (j < n)%nat -> sumn n (fun i => g i * A i j) = sumn k (fun l => v l * pFA l j)).
        { intros j _. unfold g, pFA. fold A.
          rewrite (sumn_ext n _ (fun i => sumn k (fun l => v l * (ment F l i * A i j)))).
          - rewrite sumn_swap. apply sumn_ext. intros l _. apply sumn_scale.
          - intros i _. rewrite Rmult_comm, <- sumn_scale. apply sumn_ext. intros l _. ring. }
        rewrite sumn_swap. rewrite (sumn_ext n _ (fun j => g j * sumn k (fun l => v l * pFA l j))).
        2:{ intros j Hj. rewrite <- (G j Hj), <- sumn_scale. apply sumn_ext. intros i _. ring. }
        unfold g. rewrite (sumn_ext n _ (fun j => sumn k (fun i => sumn k (fun l => v i * v l * (ment F i j * pFA l j))))).
        2:{ intros j _. rewrite Rmult_comm, <- sumn_scale. apply sumn_ext. intros i _. rewrite Rmult_comm, <- sumn_scale. apply sumn_ext. intros l _. ring. }
        rewrite sumn_swap. apply sumn_ext. intros i _. rewrite sumn_swap. apply sumn_ext. intros l _. rewrite sumn_scale. ring. }
      rewrite E5, <- sumn_plus. apply sumn_ext. intros i _. rewrite <- sumn_plus. apply sumn_ext. intros j _. unfold pS. ring. }
    rewrite E2, E3, <- E4. ring.
  Qed.
  Lemma quad_block (m l : nat) (C : mat) P Q Q' S u : mrows C = (m + l)%nat ->
    (forall i j, (i < m + l)%nat -> (j < m + l)%nat -> ment C i j = block m P Q Q' S i j) ->
    quad C u = sumn m (fun i => sumn m (fun j => u i * P i j * u j)) +
      sumn m (fun i => sumn l (fun j => u i * Q i j * u (m + j)%nat)) +
      sumn l (fun i => sumn m (fun j => u (m + i)%nat * Q' i j * u j)) +
      sumn l (fun i => sumn l (fun j => u (m + i)%nat * S i j * u (m + j)%nat)).
  Proof.
    intros Hr HC. unfold quad. rewrite Hr, sumn_app.
    rewrite (sumn_ext m _ (fun i => sumn m (fun j => u i * P i j * u j) + sumn l (fun j => u i * Q i j * u (m + j)%nat))).
    - rewrite (sumn_ext l _ (fun i => sumn m (fun j => u (m + i)%nat * Q' i j * u j) + sumn l (fun j => u (m + i)%nat * S i j * u (m + j)%nat))).
      + rewrite !sumn_plus. ring.
      + intros i Hi. rewrite sumn_app. f_equal; apply sumn_ext; intros j Hj; rewrite HC by lia; unfold block.
        * destruct (Nat.ltb_spec (m + i) m), (Nat.ltb_spec j m); try lia. replace (m + i - m)%nat with i by lia. reflexivity.
        * destruct (Nat.ltb_spec (m + i) m), (Nat.ltb_spec (m + j) m); try lia. replace (m + i - m)%nat with i by lia. replace (m + j - m)%nat with j by lia. reflexivity.
    - intros i Hi. rewrite sumn_app. f_equal; apply sumn_ext; intros j Hj; rewrite HC by lia; unfold block.
      + destruct (Nat.ltb_spec i m), (Nat.ltb_spec j m); try lia. reflexivity.
      + destruct (Nat.ltb_spec i m), (Nat.ltb_spec (m + j) m); try lia. replace (m + j - m)%nat with j by lia. reflexivity.
  Qed.

  Lemma propagate_quad mg rv J u : symmetric (cov N) -> propagate N F t B mg rv = Ok J ->
    quad (cov J) u =
      if mg then quad (cov N) (through (fun _ => 0) u) + quad B u
      else if rv then quad (cov N) (through (fun j => u (k + j)%nat) u) + quad B u
      else quad (cov N) (through u (fun i => u (n + i)%nat)) + quad B (fun i => u (n + i)%nat).
  Proof.
    intros Hs HJ. destruct (propagate_blocks mg rv) as (J' & HJ' & Hd). rewrite HJ in HJ'. injection HJ' as <-.
    cbn zeta in Hd. destruct Hd as (D1 & D2 & D3 & _ & D5). destruct mg; [|destruct rv].
    - rewrite (block_quad _ _ Hs). unfold quad. rewrite D2.
      assert (Z1 : sumn n (fun i => sumn n (fun j => 0 * ment (cov N) i j * 0)) = 0).
      { rewrite (sumn_ext n _ (fun _ => 0)); [apply sumn_zero|]. intros i _. rewrite (sumn_ext n _ (fun _ => 0)); [apply sumn_zero|]. intros; ring. }
      assert (Z2 : sumn n (fun i => sumn k (fun j => 0 * pFA j i * u j)) = 0).
      { rewrite (sumn_ext n _ (fun _ => 0)); [apply sumn_zero|]. intros i _. rewrite (sumn_ext k _ (fun _ => 0)); [apply sumn_zero|]. intros; ring. }
      assert (Z3 : sumn k (fun i => sumn n (fun j => u i * pFA i j * 0)) = 0).
      { rewrite (sumn_ext k _ (fun _ => 0)); [apply sumn_zero|]. intros i _. rewrite (sumn_ext n _ (fun _ => 0)); [apply sumn_zero|]. intros; ring. }
      rewrite Z1, Z2, Z3, !Rplus_0_l. apply sumn_ext. intros i Hi. apply sumn_ext. intros j Hj. rewrite D5 by assumption. reflexivity.
    - rewrite (block_quad _ _ Hs). rewrite (quad_block k n (cov J) pS pFA (fun i j => pFA j i) (ment (cov N)) u ltac:(lia)).
      2:{ intros i j Hi Hj. apply D5; lia. }
      ring.
    - rewrite (block_quad _ _ Hs). rewrite (quad_block n k (cov J) (ment (cov N)) (fun i j => pFA j i) pFA pS u ltac:(lia)).
      2:{ intros i j Hi Hj. apply D5; lia. }
      ring.
  Qed.
  Lemma quad_zero (C : mat) u : (forall i, (i < mrows C)%nat -> u i = 0) -> quad C u = 0.
  Proof.
    intros H. unfold quad. rewrite (sumn_ext _ _ (fun _ => 0)); [apply sumn_zero|]. intros i Hi.
    rewrite (sumn_ext _ _ (fun _ => 0)); [apply sumn_zero|]. intros j Hj. rewrite (H i Hi). ring.
  Qed.
End Blocks.
