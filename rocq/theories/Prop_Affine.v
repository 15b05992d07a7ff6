(** C58: drawing a digit in a frame and reading it back,
    /repo/experiments/apgs/affine_transformer.py. *)
From Coq Require Import Lra Lia.
From Verif Require Import Affine.
Open Scope R_scope.

(** ** Rounding *)
Lemma rint_close x : Rabs (IZR (rint x) - x) <= / 2.
Proof.
  unfold rint. destruct (base_Int_part x) as (H1 & H2). cbv zeta.
  destruct (Rlt_dec _ _) as [H|H]; [apply Rabs_le; lra|].
  destruct (Rlt_dec _ _) as [H'|H']; [rewrite plus_IZR; apply Rabs_le; lra|].
  destruct (Z.even _); rewrite ?plus_IZR; apply Rabs_le; lra.
Qed.
Lemma abs_inv x y : Rabs x <= y -> - y <= x <= y.
Proof. intros H. pose proof (Rle_abs x). pose proof (Rle_abs (- x)). rewrite Rabs_Ropp in *. lra. Qed.
Lemma abs_inv_lt x y : Rabs x < y -> - y < x < y.
Proof. intros H. pose proof (Rle_abs x). pose proof (Rle_abs (- x)). rewrite Rabs_Ropp in *. lra. Qed.
Lemma rint_near x k : Rabs (x - IZR k) < / 2 -> rint x = k.
Proof.
  intros H. pose proof (rint_close x) as H1. apply abs_inv_lt in H. apply abs_inv in H1.
  assert (A : IZR (rint x) < IZR (k + 1)) by (rewrite plus_IZR; lra).
  assert (B : IZR k < IZR (rint x + 1)) by (rewrite plus_IZR; lra).
  apply lt_IZR in A, B. lia.
Qed.
Lemma rint_range x n : 0 <= x <= INR n -> (0 <= rint x <= Z.of_nat n)%Z.
Proof.
  intros H. pose proof (rint_close x) as H1. apply abs_inv in H1. rewrite INR_IZR_INZ in H.
  assert (A : IZR (-1) < IZR (rint x)) by lra.
  assert (B : IZR (rint x) < IZR (Z.of_nat n + 1)) by (rewrite plus_IZR; lra).
  apply lt_IZR in A, B. lia.
Qed.

(** ** Indices *)
Lemma of_flat_flat {A} B T K (f : nat -> nat -> nat -> nat -> A) s b t k : (b < B)%nat -> (t < T)%nat -> (k < K)%nat ->
  of_flat B T K f (flat B T K s b t k) = f s b t k.
Proof.
  intros Hb Ht Hk. unfold of_flat, flat.
  assert (E1 : forall m j n, (j < n)%nat -> ((m * n + j) / n = m)%nat /\ ((m * n + j) mod n = j)%nat).
  { clear. intros m j n H. split.
    - rewrite Nat.div_add_l by lia. rewrite Nat.div_small by exact H. lia.
    - rewrite Nat.add_comm, Nat.mod_add by lia. apply Nat.mod_small. exact H. }
  destruct (E1 ((s * B + b) * T + t)%nat k K Hk) as (-> & ->). destruct (E1 (s * B + b)%nat t T Ht) as (-> & ->).
  destruct (E1 s b B Hb) as (-> & ->). reflexivity.
Qed.

Section One_axis.
  Context (f d : nat) (Hd : (1 <= d)%nat) (Hf : (d <= f)%nat) (z : R) (Hz : -1 <= z <= 1).
  Let Hd1 : 1 <= INR d. Proof. replace 1 with (INR 1) by reflexivity. apply le_INR. exact Hd. Qed.
  Let Hf1 : INR d <= INR f. Proof. apply le_INR. exact Hf. Qed.

  Definition there (x : R) : R := scale_ftod f d * x + z * translation_ftod f d.
  Definition back (x : R) : R := scale_dtof f d * x - z * translation_dtof f d.
  Lemma back_there x e : back (there x + e) = x + INR f / INR d * e.
  Proof. unfold back, there, scale_dtof, scale_ftod, translation_dtof, translation_ftod. field. lra. Qed.
  Lemma coord_bound n i : (i < n)%nat -> -1 <= coord n i <= 1.
  Proof.
    intros H. unfold coord. destruct (Nat.leb_spec n 1) as [H1|H1]; [lra|].
    assert (Hn : 1 <= INR (n - 1)) by (replace 1 with (INR 1) by reflexivity; apply le_INR; lia).
    assert (Hi : 0 <= INR i) by apply pos_INR. assert (Hi' : INR i <= INR (n - 1)) by (apply le_INR; lia).
    assert (0 <= INR i / INR (n - 1) <= 1).
    { split; [apply Rmult_le_pos; [exact Hi|left; apply Rinv_0_lt_compat; lra]|].
      apply (Rmult_le_reg_r (INR (n - 1))); [lra|]. unfold Rdiv. rewrite Rmult_assoc, Rinv_l, Rmult_1_r, Rmult_1_l by lra. exact Hi'. }
    unfold Rdiv in *. lra.
  Qed.
  Lemma there_bound x : -1 <= x <= 1 -> -1 <= there x <= 1.
  Proof.
    intros Hx. unfold there, scale_ftod, translation_ftod.
    assert (Hq : 0 < INR d / INR f <= 1).
    { split; [apply Rmult_lt_0_compat; [lra|apply Rinv_0_lt_compat; lra]|].
      apply (Rmult_le_reg_r (INR f)); [lra|]. unfold Rdiv. rewrite Rmult_assoc, Rinv_l, Rmult_1_r, Rmult_1_l by lra. exact Hf1. }
    replace ((INR f - INR d) / INR f) with (1 - INR d / INR f) by (field; lra). set (q := INR d / INR f) in *. nra.
  Qed.
  Lemma there_pixel p : (p < d)%nat -> (0 <= nearest f (there (coord d p)) < Z.of_nat f)%Z.
  Proof.
    intros Hp. unfold nearest. pose proof (there_bound _ (coord_bound d p Hp)) as H.
    assert (0 <= INR (f - 1)) by apply pos_INR.
    pose proof (rint_range ((there (coord d p) + 1) / 2 * INR (f - 1)) (f - 1)) as HR.
    assert (0 <= (there (coord d p) + 1) / 2 * INR (f - 1) <= INR (f - 1)) by (split; nra). specialize (HR H1). lia.
  Qed.
  Lemma round_trip p : (p < d)%nat -> nearest d (back (coord f (Z.to_nat (nearest f (there (coord d p)))))) = Z.of_nat p.
  Proof.
    intros Hp. pose proof (there_pixel p Hp) as Hn. set (n := nearest f (there (coord d p))) in *.
    destruct (Nat.eq_dec d 1) as [H1|H1].
    - unfold nearest. rewrite H1. cbn [Nat.sub INR]. rewrite Rmult_0_r. replace (Z.of_nat p) with 0%Z by lia.
      apply rint_near. rewrite Rminus_0_r, Rabs_R0. lra.
    - assert (Hcf : coord f (Z.to_nat n) = -1 + 2 * IZR n / INR (f - 1)).
      { unfold coord. destruct (Nat.leb_spec f 1); [lia|]. rewrite (INR_IZR_INZ (Z.to_nat n)), Z2Nat.id by lia. reflexivity. }
      assert (Hcd : coord d p = -1 + 2 * INR p / INR (d - 1)).
      { unfold coord. destruct (Nat.leb_spec d 1); [lia|]. reflexivity. }
      assert (Hdm : INR (d - 1) = INR d - 1) by (rewrite minus_INR by lia; reflexivity).
      assert (Hfm : INR (f - 1) = INR f - 1) by (rewrite minus_INR by lia; reflexivity).
      assert (Hd2 : 2 <= INR d) by (replace 2 with (INR 2) by reflexivity; apply le_INR; lia).
      pose proof (rint_close ((there (coord d p) + 1) / 2 * INR (f - 1))) as Hc. fold (nearest f (there (coord d p))) in Hc. fold n in Hc.
      set (u := (there (coord d p) + 1) / 2 * INR (f - 1)) in *. set (e := IZR n - u) in *.
      assert (Hx : coord f (Z.to_nat n) = there (coord d p) + 2 * e / INR (f - 1)).
      { rewrite Hcf. unfold e, u. rewrite Hfm. field. lra. }
      unfold nearest. rewrite Hx, back_there.
      replace ((coord d p + INR f / INR d * (2 * e / INR (f - 1)) + 1) / 2 * INR (d - 1))
        with (INR p + e * (INR f * (INR d - 1) / (INR d * (INR f - 1)))).
      2:{ rewrite Hcd, Hdm, Hfm. field. lra. }
      apply rint_near. rewrite <- INR_IZR_INZ. set (r := INR f * (INR d - 1) / (INR d * (INR f - 1))).
      replace (INR p + e * r - INR p) with (e * r) by ring. rewrite Rabs_mult.
      destruct (Nat.eq_dec d f) as [Hdf|Hdf].
      + assert (e = 0).
        { assert (Hu : u = IZR (Z.of_nat p)).
          { unfold u, there, scale_ftod, translation_ftod. rewrite Hcd, <- Hdf, Hdm, <- INR_IZR_INZ. field. lra. }
          unfold e, n, nearest. fold u. rewrite (rint_near u (Z.of_nat p)); rewrite Hu; [ring|].
          unfold Rminus. rewrite Rplus_opp_r, Rabs_R0. lra. }
        rewrite H, Rabs_R0, Rmult_0_l. lra.
      + assert (Hlt : INR d < INR f) by (apply lt_INR; lia).
        assert (Hr : 0 < r < 1).
        { unfold r. split; [apply Rmult_lt_0_compat; [nra|apply Rinv_0_lt_compat; nra]|].
          apply (Rmult_lt_reg_r (INR d * (INR f - 1))); [nra|]. unfold Rdiv. rewrite Rmult_assoc, Rinv_l by nra. nra. }
        rewrite (Rabs_right r) by lra. pose proof (Rabs_pos e). nra.
  Qed.
  (** a frame coordinate that reads the digit at all is near the centre of the digit *)
  Lemma confined x : (2 <= d)%nat -> in_range d (nearest d (back x)) = true ->
    Rabs (x - z * translation_ftod f d) <= INR d / INR f * (INR d / INR (d - 1)).
  Proof.
    intros H2 H. unfold in_range in H. apply andb_prop in H. destruct H as (H0 & H1). apply Z.leb_le in H0. apply Z.ltb_lt in H1.
    assert (Hdm : INR (d - 1) = INR d - 1) by (rewrite minus_INR by lia; reflexivity).
    assert (Hd2 : 2 <= INR d) by (replace 2 with (INR 2) by reflexivity; apply le_INR; lia).
    unfold nearest in *. pose proof (rint_close ((back x + 1) / 2 * INR (d - 1))) as Hc. apply abs_inv in Hc.
    set (k := rint _) in *. rewrite Hdm in *.
    assert (A : 0 <= IZR k) by (apply (IZR_le 0); exact H0).
    assert (B : IZR k <= INR d - 1).
    { rewrite INR_IZR_INZ. replace (IZR (Z.of_nat d) - 1) with (IZR (Z.of_nat d - 1)) by (rewrite minus_IZR; reflexivity). apply IZR_le. lia. }
    assert (Hb : - (INR d) <= back x * (INR d - 1) <= INR d) by nra.
    assert (E : x - z * translation_ftod f d = INR d / INR f * back x).
    { unfold back, scale_dtof, translation_dtof, translation_ftod. field. lra. }
    rewrite E, Rabs_mult.
    assert (Hq : 0 < INR d / INR f) by (apply Rmult_lt_0_compat; [lra|apply Rinv_0_lt_compat; lra]).
    rewrite Rabs_right by lra. apply Rmult_le_compat_l; [lra|].
    apply (Rmult_le_reg_r (INR d - 1)); [lra|]. unfold Rdiv. rewrite Rmult_assoc, Rinv_l, Rmult_1_r by lra.
    assert (EA : Rabs (back x) * (INR d - 1) = Rabs (back x * (INR d - 1))) by (rewrite Rabs_mult, (Rabs_right (INR d - 1)) by lra; reflexivity).
    rewrite EA. apply Rabs_le. lra.
  Qed.
End One_axis.

Lemma in_range_true n z : (0 <= z < Z.of_nat n)%Z -> in_range n z = true.
Proof. intros H. unfold in_range. apply andb_true_intro. split; [apply Z.leb_le|apply Z.ltb_lt]; lia. Qed.

Lemma ftod_x f d zx zy n i j : grid_x (mk_theta (scale_ftod f d) (zx * translation_ftod f d) (-1 * (zy * translation_ftod f d))) n i j = there f d zx (coord n j).
Proof. unfold grid_x, mk_theta, there. ring. Qed.
Lemma ftod_y f d zx zy n i j : grid_y (mk_theta (scale_ftod f d) (zx * translation_ftod f d) (-1 * (zy * translation_ftod f d))) n i j = there f d (- zy) (coord n i).
Proof. unfold grid_y, mk_theta, there. ring. Qed.
Lemma dtof_x f d zx zy n i j : grid_x (mk_theta (scale_dtof f d) (-1 * (zx * translation_dtof f d)) (zy * translation_dtof f d)) n i j = back f d zx (coord n j).
Proof. unfold grid_x, mk_theta, back. ring. Qed.
Lemma dtof_y f d zx zy n i j : grid_y (mk_theta (scale_dtof f d) (-1 * (zx * translation_dtof f d)) (zy * translation_dtof f d)) n i j = back f d (- zy) (coord n i).
Proof. unfold grid_y, mk_theta, back. ring. Qed.

(** Let [frames] show, at (s, b, t), exactly the digit k of that sample drawn at its position.
    Cutting the patch at that position out of the frame returns the digit, pixel for pixel. *)
Theorem C58_round_trip (frame_pixels digit_pixels B T K : nat) (digit : nat -> nat -> nat -> image)
    (z_where : nat -> nat -> nat -> nat -> nat -> R) (frames : nat -> nat -> nat -> image) (s b t k : nat) :
  (1 <= digit_pixels <= frame_pixels)%nat -> (b < B)%nat -> (t < T)%nat -> (k < K)%nat ->
  -1 <= z_where s b t k 0%nat <= 1 -> -1 <= z_where s b t k 1%nat <= 1 ->
  (forall i j, (i < frame_pixels)%nat -> (j < frame_pixels)%nat ->
     frames s b t i j = digit_to_frame frame_pixels digit_pixels B T K digit z_where s b t k i j) ->
  forall i j, (i < digit_pixels)%nat -> (j < digit_pixels)%nat ->
    frame_to_digit frame_pixels digit_pixels B T K frames z_where s b t k i j = digit s b k i j.
Proof.
  intros [Hd Hf] Hb Ht Hk Hx Hy Hfr i j Hi Hj. unfold frame_to_digit. cbv zeta. rewrite !of_flat_flat by assumption.
  rewrite ftod_x, ftod_y. set (zx := z_where s b t k 0%nat) in *. set (zy := z_where s b t k 1%nat) in *.
  assert (Hy' : -1 <= - zy <= 1) by lra.
  pose proof (there_pixel _ _ Hd Hf zx Hx j Hj) as Rx. pose proof (there_pixel _ _ Hd Hf (- zy) Hy' i Hi) as Ry.
  unfold grid_sample. cbv zeta. rewrite (in_range_true _ _ Rx), (in_range_true _ _ Ry). cbn [andb].
  rewrite Hfr by lia. unfold digit_to_frame. cbv zeta. rewrite !of_flat_flat by assumption. fold zx zy. rewrite dtof_x, dtof_y.
  unfold grid_sample. cbv zeta. rewrite !round_trip by assumption.
  rewrite !in_range_true by lia. cbn [andb]. rewrite !Nat2Z.id. reflexivity.
Qed.
Print Assumptions C58_round_trip.

(** The patch never leaves the frame: every pixel of it is a pixel of the frame. *)
Theorem C58_patch_inside (frame_pixels digit_pixels B T K : nat) (frames : nat -> nat -> nat -> image)
    (z_where : nat -> nat -> nat -> nat -> nat -> R) (s b t k : nat) :
  (1 <= digit_pixels <= frame_pixels)%nat -> (b < B)%nat -> (t < T)%nat -> (k < K)%nat ->
  -1 <= z_where s b t k 0%nat <= 1 -> -1 <= z_where s b t k 1%nat <= 1 ->
  forall i j, (i < digit_pixels)%nat -> (j < digit_pixels)%nat ->
    exists i' j', (i' < frame_pixels)%nat /\ (j' < frame_pixels)%nat /\
      frame_to_digit frame_pixels digit_pixels B T K frames z_where s b t k i j = frames s b t i' j'.
Proof.
  intros [Hd Hf] Hb Ht Hk Hx Hy i j Hi Hj. unfold frame_to_digit. cbv zeta. rewrite !of_flat_flat by assumption.
  rewrite ftod_x, ftod_y. set (zx := z_where s b t k 0%nat) in *. set (zy := z_where s b t k 1%nat) in *.
  assert (Hy' : -1 <= - zy <= 1) by lra.
  pose proof (there_pixel _ _ Hd Hf zx Hx j Hj) as Rx. pose proof (there_pixel _ _ Hd Hf (- zy) Hy' i Hi) as Ry.
  unfold grid_sample. cbv zeta. rewrite (in_range_true _ _ Rx), (in_range_true _ _ Ry). cbn [andb].
  eexists _, _. split; [|split; [|reflexivity]]; lia.
Qed.
Print Assumptions C58_patch_inside.

(** The digit is drawn around the point (z_x, -z_y) * (1 - digit_pixels / frame_pixels) of the frame
    (coordinates from -1 to 1, rows downwards) and nowhere else: every other pixel is 0. *)
Theorem C58_drawn_there (frame_pixels digit_pixels B T K : nat) (digit : nat -> nat -> nat -> image)
    (z_where : nat -> nat -> nat -> nat -> nat -> R) (s b t k i j : nat) :
  let FP := INR frame_pixels in let DP := INR digit_pixels in
  (2 <= digit_pixels <= frame_pixels)%nat -> (b < B)%nat -> (t < T)%nat -> (k < K)%nat ->
  digit_to_frame frame_pixels digit_pixels B T K digit z_where s b t k i j <> 0 ->
  Rabs (coord frame_pixels j - z_where s b t k 0%nat * (1 - DP / FP)) <= DP / FP * (DP / (DP - 1)) /\
  Rabs (coord frame_pixels i + z_where s b t k 1%nat * (1 - DP / FP)) <= DP / FP * (DP / (DP - 1)).
Proof.
  intros FP DP [Hd Hf] Hb Ht Hk H. unfold digit_to_frame in H. cbv zeta in H. rewrite !of_flat_flat in H by assumption.
  rewrite dtof_x, dtof_y in H. set (zx := z_where s b t k 0%nat) in *. set (zy := z_where s b t k 1%nat) in *.
  unfold grid_sample in H. cbv zeta in H. destruct (in_range digit_pixels (nearest _ (back _ _ zx _))) eqn:Ex; [|cbn [andb] in H; contradiction].
  destruct (in_range digit_pixels (nearest _ (back _ _ (- zy) _))) eqn:Ey; [|cbn [andb] in H; contradiction].
  assert (Hd1 : (1 <= digit_pixels)%nat) by lia.
  pose proof (confined _ _ Hd1 Hf zx _ Hd Ex) as Cx. pose proof (confined _ _ Hd1 Hf (- zy) _ Hd Ey) as Cy.
  assert (P : 1 <= INR digit_pixels) by (replace 1 with (INR 1) by reflexivity; apply le_INR; lia).
  assert (Q : INR digit_pixels <= INR frame_pixels) by (apply le_INR; exact Hf).
  assert (E : translation_ftod frame_pixels digit_pixels = 1 - DP / FP) by (unfold translation_ftod, DP, FP; field; lra).
  assert (Em : INR (digit_pixels - 1) = DP - 1) by (rewrite minus_INR by lia; reflexivity).
  rewrite E, Em in Cx, Cy. split; [exact Cx|]. replace (coord frame_pixels i + zy * (1 - DP / FP)) with (coord frame_pixels i - - zy * (1 - DP / FP)) by ring. exact Cy.
Qed.
Print Assumptions C58_drawn_there.

(** A case: the sizes of the experiment, 28 pixels in 96, at a corner. *)
Example C58_case (digit : nat -> nat -> nat -> image) (i j : nat) : (i < 28)%nat -> (j < 28)%nat ->
  frame_to_digit 96 28 1 1 1 (fun s b t => digit_to_frame 96 28 1 1 1 digit (fun _ _ _ _ _ => 1) s b t 0) (fun _ _ _ _ _ => 1) 0 0 0 0 i j = digit 0%nat 0%nat 0%nat i j.
Proof. intros Hi Hj. apply C58_round_trip; try lia; try lra. intros. reflexivity. Qed.
