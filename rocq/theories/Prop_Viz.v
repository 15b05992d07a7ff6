(** C90: what viz_samples shows. *)
From Coq Require Import Lra Lia.
From Verif Require Import Viz Prop_Affine.
Open Scope R_scope.

(** ** C90 The pictures of the samples show the samples
    For every sequence and every time: above the observed frame, below the reconstruction of the first
    particle, and on the frame one rectangle for each object, where the decoder draws that
    object for that particle. *)

Lemma collect_length {A} n i (f : nat -> res A) l : collect n i f = Ok l -> List.length l = n.
Proof.
  revert i l. induction n as [|n IH]; cbn; intros i l; [intros [= <-]; reflexivity|]. destruct (f i); cbn; [|discriminate].
  destruct (collect n (S i) f) eqn:E; cbn; [|discriminate]. intros [= <-]. cbn. f_equal. eapply IH, E.
Qed.
Lemma collect_nth {A} n i (f : nat -> res A) l : collect n i f = Ok l -> forall k, (k < n)%nat -> exists a, nth_error l k = Some a /\ f (i + k)%nat = Ok a.
Proof.
  revert i l. induction n as [|n IH]; cbn; intros i l; [intros _ k Hk; lia|]. destruct (f i) as [a|] eqn:Ef; cbn; [|discriminate].
  destruct (collect n (S i) f) as [l'|] eqn:E; cbn; [|discriminate]. intros [= <-] [|k] Hk.
  - exists a. split; [reflexivity|]. rewrite Nat.add_0_r. exact Ef.
  - destruct (IH _ _ E k) as (a' & H1 & H2); [lia|]. exists a'. split; [exact H1|]. rewrite <- H2. f_equal. lia.
Qed.
Lemma collect_total {A} n i (f : nat -> res A) : (forall k, (i <= k < i + n)%nat -> exists a, f k = Ok a) -> exists l, collect n i f = Ok l.
Proof.
  revert i. induction n as [|n IH]; cbn; intros i H; [eauto|]. destruct (H i) as (a & ->); [lia|]. cbn. destruct (IH (S i)) as (l & ->); [intros k Hk; apply H; lia|]. cbn. eauto.
Qed.

(** the point (x, y) of a picture is in a rectangle, or within [m] of it *)
Definition within (m : R) (r : rect) (x y : R) : Prop :=
  r_x r - m < x < r_x r + INR (r_width r) + m /\ r_y r - m < y < r_y r + INR (r_height r) + m.

(** Every sequence has its figure and every time its column, which shows the frame above and the
    first particle's reconstruction below. *)
Theorem C90_images : forall B T FP K frames rs ws num_objects object_size save figs saved,
  viz_samples B T FP K frames rs ws num_objects object_size save = Ok (figs, saved) ->
  List.length figs = B /\ forall b, (b < B)%nat -> exists fig, nth_error figs b = Some fig /\ List.length fig = T /\
    forall t, (t < T)%nat -> exists c, nth_error fig t = Some c /\ above c = frames b t /\ below c = rs 0%nat b t /\ List.length (rects c) = num_objects.
Proof.
  intros B T FP K frames rs ws num_objects object_size save figs saved H. unfold viz_samples, figures in H.
  destruct (collect B 0 _) as [l|] eqn:E; cbn in H; [|discriminate]. injection H as <- _. split; [eapply collect_length, E|].
  intros b Hb. destruct (collect_nth _ _ _ _ E b Hb) as (fig & Hn & Hf). exists fig. split; [exact Hn|]. split; [eapply collect_length, Hf|].
  intros t Ht. destruct (collect_nth _ _ _ _ Hf t Ht) as (c & Hc & Hr). exists c. split; [exact Hc|]. cbn [Nat.add] in Hr. unfold column_of in Hr.
  destruct (collect num_objects 0 _) as [rl|] eqn:Er; cbn in Hr; [|discriminate]. injection Hr as <-. cbn. split; [reflexivity|]. split; [reflexivity|]. eapply collect_length, Er.
Qed.
Print Assumptions C90_images.

Section Axis.
  Context (f d : nat) (Hd : (2 <= d)%nat) (Hf : (d <= f)%nat) (z : R) (Hz : -1 <= z <= 1).
  Let Hd2 : 2 <= INR d. Proof. replace 2 with (INR 2) by reflexivity. apply le_INR. exact Hd. Qed.
  Let Hf1 : INR d <= INR f. Proof. apply le_INR. exact Hf. Qed.
  Let Hr : 0 < INR d / INR f <= 1.
  Proof.
    split; [apply Rmult_lt_0_compat; [lra|apply Rinv_0_lt_compat; lra]|].
    apply (Rmult_le_reg_r (INR f)); [lra|]. unfold Rdiv. rewrite Rmult_assoc, Rinv_l, Rmult_1_r, Rmult_1_l by lra. exact Hf1.
  Qed.
  Lemma coord_pix n : coord f n = -1 + 2 * INR n / (INR f - 1).
  Proof. unfold coord. destruct (Nat.leb_spec f 1); [lia|]. rewrite minus_INR by lia. reflexivity. Qed.
  (** the pixel relative to the corner, in the coordinate of the digit *)
  Lemma pixel_back n : (back f d z (coord f n) + 1) / 2 * (INR d - 1) =
    (INR f * (INR d - 1)) / (INR d * (INR f - 1)) * (INR n - (z + 1) * (INR f - INR d) / 2 + (z * (1 - INR d / INR f) + 1) / 2 - INR d / 2) + (INR d - 1) / 2.
  Proof. rewrite coord_pix. unfold back, scale_dtof, translation_dtof. field. lra. Qed.
  Lemma axis_near n : in_range d (nearest d (back f d z (coord f n))) = true ->
    (z + 1) * (INR f - INR d) / 2 - 2 < INR n < (z + 1) * (INR f - INR d) / 2 + INR d + 2.
  Proof.
    intros H. assert (Hd1 : (1 <= d)%nat) by lia. pose proof (confined f d Hd1 Hf z _ Hd H) as C. apply abs_inv in C. rewrite coord_pix, minus_INR in C by lia. cbn [INR] in C.
    unfold translation_ftod in C. set (F := INR f) in *. set (D := INR d) in *.
    replace ((F - D) / F) with (1 - D / F) in C by (field; lra). assert (ED : D / F * F = D) by (field; lra). set (r := D / F) in *.
    assert (EN : 2 * INR n / (F - 1) * (F - 1) = 2 * INR n) by (field; lra). set (q := 2 * INR n / (F - 1)) in *.
    assert (EH : D / (D - 1) * (D - 1) = D) by (field; lra). set (h := D / (D - 1)) in *.
    assert (Hh : h <= 2) by (apply (Rmult_le_reg_r (D - 1)); lra). assert (Hh1 : h = 1 + h / D) by (unfold h; field; lra).
    assert (HX : r * h * (F - 1) <= D + 2 * (1 - r)).
    { replace (r * h * (F - 1)) with (D + (1 - r) * h); [nra|]. unfold h, r. field. lra. }
    assert (q * (F - 1) <= (1 + z * (1 - r) + r * h) * (F - 1)) by (apply Rmult_le_compat_r; lra).
    assert ((1 + z * (1 - r) - r * h) * (F - 1) <= q * (F - 1)) by (apply Rmult_le_compat_r; lra).
    assert (z * (1 - r) * F = z * (F - D)) by (rewrite <- ED; ring).
    assert (- (1 - r) <= z * (1 - r) <= 1 - r) by nra.
    split; nra.
  Qed.
  Lemma axis_inside n : (z + 1) * (INR f - INR d) / 2 <= INR n <= (z + 1) * (INR f - INR d) / 2 + INR d - 1 -> in_range d (nearest d (back f d z (coord f n))) = true.
  Proof.
    intros H. unfold nearest. rewrite minus_INR by lia. cbn [INR]. rewrite pixel_back.
    assert (Hs : 0 < INR f * (INR d - 1) / (INR d * (INR f - 1)) <= 1).
    { split; [apply Rmult_lt_0_compat; [nra|apply Rinv_0_lt_compat; nra]|].
      apply (Rmult_le_reg_r (INR d * (INR f - 1))); [nra|]. unfold Rdiv. rewrite Rmult_assoc, Rinv_l by nra. nra. }
    set (s := INR f * (INR d - 1) / (INR d * (INR f - 1))) in *. set (r := INR d / INR f) in *. set (x0 := (z + 1) * (INR f - INR d) / 2) in *.
    set (y := INR n - x0 + (z * (1 - r) + 1) / 2 - INR d / 2). assert (- (INR d / 2) < y < INR d / 2) by (unfold y; split; nra).
    assert (- (INR d / 2) < s * y < INR d / 2) by (split; nra).
    pose proof (rint_close (s * y + (INR d - 1) / 2)) as C. apply abs_inv in C. set (k := rint _) in *.
    apply in_range_true. assert (IZR (-1) < IZR k) by lra. assert (IZR k < IZR (Z.of_nat d)) by (rewrite <- INR_IZR_INZ; lra). apply lt_IZR in H2, H3. lia.
  Qed.
End Axis.

Lemma figure_rect B T FP K frames rs ws num_objects object_size save figs saved fig c b t k :
  viz_samples B T FP K frames rs ws num_objects object_size save = Ok (figs, saved) -> (b < B)%nat -> (t < T)%nat -> (k < num_objects)%nat ->
  nth_error figs b = Some fig -> nth_error fig t = Some c -> exists r, nth_error (rects c) k = Some r /\ (k < K)%nat /\ nth_error colors k = Some (r_color r) /\
    r_x r = (ws 0%nat b t k 0%nat + 1) * (INR FP - INR object_size) / 2 /\ r_y r = (- ws 0%nat b t k 1%nat + 1) * (INR FP - INR object_size) / 2 /\
    r_width r = object_size /\ r_height r = object_size.
Proof.
  intros H Hb Ht Hk Hfig Hc. unfold viz_samples, figures in H. destruct (collect B 0 _) as [l|] eqn:E; cbn in H; [|discriminate]. injection H as <- _.
  unfold figure in *. destruct (collect_nth _ _ _ _ E b Hb) as (fig' & Hn & Hf). rewrite Hfig in Hn. injection Hn as <-.
  destruct (collect_nth _ _ _ _ Hf t Ht) as (c' & Hn & Hr). rewrite Hc in Hn. injection Hn as <-. cbn [Nat.add] in Hr. unfold column_of in Hr.
  destruct (collect num_objects 0 _) as [rl|] eqn:Er; cbn in Hr; [|discriminate]. injection Hr as <-. cbn [rects].
  destruct (collect_nth _ _ _ _ Er k Hk) as (r & Hn & Hq). exists r. split; [exact Hn|]. cbn [Nat.add] in Hq. unfold rect_of in Hq.
  destruct (Nat.ltb_spec k K) as [L|L]; [|discriminate]. split; [exact L|]. destruct (nth_error colors k) as [color|]; [|discriminate]. injection Hq as <-. cbn.
  unfold c_pixels_last, z_wheres_last. cbn. repeat split. f_equal. f_equal. ring.
Qed.

(** On every frame, the rectangle of every object lies in the picture, and encloses the object: all pixels
    where the decoder draws it for the first particle are in the rectangle or less than two
    pixels from it, and all pixels well inside the rectangle are pixels of the object. *)
Theorem C90_rectangles : forall B T FP K frames rs ws num_objects object_size save figs saved,
  (2 <= object_size <= FP)%nat ->
  viz_samples B T FP K frames rs ws num_objects object_size save = Ok (figs, saved) ->
  forall b t k, (b < B)%nat -> (t < T)%nat -> (k < num_objects)%nat -> -1 <= ws 0%nat b t k 0%nat <= 1 -> -1 <= ws 0%nat b t k 1%nat <= 1 ->
  exists fig c r, nth_error figs b = Some fig /\ nth_error fig t = Some c /\ nth_error (rects c) k = Some r /\
    0 <= r_x r /\ r_x r + INR (r_width r) <= INR FP /\ 0 <= r_y r /\ r_y r + INR (r_height r) <= INR FP /\
    (forall digit i j, digit_to_frame FP object_size B T K digit ws 0 b t k i j <> 0 -> within 2 r (INR j) (INR i)) /\
    (forall digit i j, (forall i' j', digit 0%nat b k i' j' <> 0) ->
       r_x r <= INR j <= r_x r + INR (r_width r) - 1 -> r_y r <= INR i <= r_y r + INR (r_height r) - 1 ->
       digit_to_frame FP object_size B T K digit ws 0 b t k i j <> 0).
Proof.
  intros B T FP K frames rs ws num_objects object_size save figs saved [Hd Hf] H b t k Hb Ht Hk Hx Hy.
  destruct (C90_images _ _ _ _ _ _ _ _ _ _ _ _ H) as (_ & HI). destruct (HI b Hb) as (fig & Hfig & _ & HI2). destruct (HI2 t Ht) as (c & Hc & _).
  destruct (figure_rect _ _ _ _ _ _ _ _ _ _ _ _ _ _ _ _ _ H Hb Ht Hk Hfig Hc) as (r & Hr & HkK & _ & Ex & Ey & Ew & Eh).
  exists fig, c, r. split; [exact Hfig|]. split; [exact Hc|]. split; [exact Hr|]. unfold within. rewrite Ex, Ey, Ew, Eh.
  assert (Hle : INR object_size <= INR FP) by (apply le_INR; exact Hf).
  set (zx := ws 0%nat b t k 0%nat) in *. set (zy := ws 0%nat b t k 1%nat) in *. assert (Hy' : -1 <= - zy <= 1) by lra.
  split; [nra|]. split; [nra|]. split; [nra|]. split; [nra|]. split.
  - intros digit i j Hn. unfold digit_to_frame in Hn. cbv zeta in Hn. rewrite !of_flat_flat in Hn by assumption. rewrite dtof_x, dtof_y in Hn. fold zx zy in Hn.
    unfold grid_sample in Hn. cbv zeta in Hn. destruct (in_range object_size (nearest _ (back _ _ zx _))) eqn:E1; [|cbn [andb] in Hn; contradiction].
    destruct (in_range object_size (nearest _ (back _ _ (- zy) _))) eqn:E2; [|cbn [andb] in Hn; contradiction].
    split; [exact (axis_near FP object_size Hd Hf zx Hx j E1)|exact (axis_near FP object_size Hd Hf (- zy) Hy' i E2)].
  - intros digit i j Hdig Hj Hi. unfold digit_to_frame. cbv zeta. rewrite !of_flat_flat by assumption. rewrite dtof_x, dtof_y. fold zx zy.
    unfold grid_sample. cbv zeta. rewrite (axis_inside FP object_size Hd Hf zx Hx j Hj), (axis_inside FP object_size Hd Hf (- zy) Hy' i Hi). apply Hdig.
Qed.
Print Assumptions C90_rectangles.

(** It succeeds exactly when there are at most seven objects and the samples have as many (or nothing is to be shown); different
    objects of a frame have different colours. *)
Theorem C90_objects : forall B T FP K frames rs ws num_objects object_size save, (0 < B)%nat -> (0 < T)%nat ->
  (exists out, viz_samples B T FP K frames rs ws num_objects object_size save = Ok out) <-> (num_objects <= 7)%nat /\ (num_objects <= K)%nat.
Proof.
  intros B T FP K frames rs ws num_objects object_size save HB HT. split.
  - intros ((figs & saved) & H). destruct num_objects as [|n]; [lia|].
    destruct (C90_images _ _ _ _ _ _ _ _ _ _ _ _ H) as (_ & HI). destruct (HI 0%nat HB) as (fig & Hfig & _ & HI2). destruct (HI2 0%nat HT) as (c & Hc & _).
    destruct (figure_rect _ _ _ _ _ _ _ _ _ _ _ _ _ _ _ _ n H HB HT (Nat.lt_succ_diag_r n) Hfig Hc) as (r & _ & HkK & Hcol & _).
    assert (n < List.length colors)%nat by (apply nth_error_Some; congruence). cbn in H0. lia.
  - intros [H7 HK]. unfold viz_samples, figures.
    destruct (collect_total B 0 (fun b => collect T 0 (column_of FP K frames rs ws num_objects object_size b))) as (l & ->); [|cbn; eauto].
    intros b _. apply collect_total. intros t _. unfold column_of.
    destruct (collect_total num_objects 0 (rect_of FP K ws object_size b t)) as (rl & ->); [|cbn; eauto].
    intros k Hk. unfold rect_of. destruct (Nat.ltb_spec k K); [|lia]. destruct (nth_error colors k) eqn:E; [eauto|]. apply nth_error_None in E. cbn in E. lia.
Qed.
Print Assumptions C90_objects.
Theorem C90_colors : forall B T FP K frames rs ws num_objects object_size save figs saved,
  viz_samples B T FP K frames rs ws num_objects object_size save = Ok (figs, saved) ->
  forall fig c, In fig figs -> In c fig -> NoDup (map r_color (rects c)).
Proof.
  intros B T FP K frames rs ws num_objects object_size save figs saved H fig c Hfig Hc.
  destruct (C90_images _ _ _ _ _ _ _ _ _ _ _ _ H) as (HL & HI). apply In_nth_error in Hfig. destruct Hfig as (b & Hb).
  assert (Lb : (b < B)%nat) by (rewrite <- HL; apply nth_error_Some; congruence). destruct (HI b Lb) as (fig' & E & HT & HI2). rewrite Hb in E. injection E as <-.
  apply In_nth_error in Hc. destruct Hc as (t & Ht). assert (Lt : (t < T)%nat) by (rewrite <- HT; apply nth_error_Some; congruence).
  destruct (HI2 t Lt) as (c' & E & _ & _ & Hn). rewrite Ht in E. injection E as <-.
  assert (ND : NoDup colors) by (repeat constructor; cbn; intuition discriminate).
  rewrite NoDup_nth_error in ND |- *. intros i j Hi E. rewrite map_length, Hn in Hi.
  destruct (figure_rect _ _ _ _ _ _ _ _ _ _ _ _ _ _ _ _ i H Lb Lt Hi Hb Ht) as (ri & Ri & _ & Ci & _).
  rewrite !nth_error_map, Ri in E. cbn [option_map] in E. destruct (nth_error (rects c) j) as [rj|] eqn:Rj; [|discriminate]. injection E as E.
  assert (Lj : (j < num_objects)%nat) by (rewrite <- Hn; apply nth_error_Some; congruence).
  destruct (figure_rect _ _ _ _ _ _ _ _ _ _ _ _ _ _ _ _ j H Lb Lt Lj Hb Ht) as (rj' & Rj' & _ & Cj & _). rewrite Rj in Rj'. injection Rj' as <-.
  apply ND; [apply nth_error_Some; congruence|]. congruence.
Qed.
Print Assumptions C90_colors.

(** Only the last sequence's figure is saved; the property "all are saved" is false of every
    call on two or more sequences whose last figure is not that of the first. *)
Theorem C90_saved_refuted : forall B T FP K frames rs ws num_objects object_size figs saved,
  viz_samples (S B) T FP K frames rs ws num_objects object_size true = Ok (figs, saved) ->
  exists fig, nth_error figs B = Some fig /\ saved = Some fig /\
    forall b fig', nth_error figs b = Some fig' -> fig' <> fig -> saved <> Some fig'.
Proof.
  intros B T FP K frames rs ws num_objects object_size figs saved H. destruct (C90_images _ _ _ _ _ _ _ _ _ _ _ _ H) as (HL & HI).
  destruct (HI B (Nat.lt_succ_diag_r B)) as (fig & Hfig & _). exists fig. split; [exact Hfig|].
  assert (E : saved = Some fig).
  { unfold viz_samples in H. destruct (figures _ _ _ _ _ _ _ _ _) as [l|]; cbn in H; [|discriminate]. injection H as -> <-. f_equal.
    clear -HL Hfig. revert B HL Hfig. induction figs as [|x figs IH]; intros B HL Hfig; [discriminate|]. destruct figs as [|y figs].
    - cbn in HL. injection HL as <-. cbn in Hfig. injection Hfig as <-. reflexivity.
    - destruct B as [|B]; [discriminate|]. change (List.last (x :: y :: figs) []) with (List.last (y :: figs) []). apply (IH B); [cbn in *; lia|exact Hfig]. }
  split; [exact E|]. intros b fig' _ Hne. rewrite E. congruence.
Qed.
Print Assumptions C90_saved_refuted.

(** A case: two sequences of one frame of 96 pixels with two objects of 28 pixels, of which the second is in the
    upper right corner (z_y = 1 is up). *)
Example C90_case : exists figs saved c r,
  viz_samples 2 1 96 2 (fun b _ _ _ => INR b) (fun _ _ _ _ _ => 0) (fun _ _ _ k _ => INR k) 2 28 true = Ok (figs, saved) /\
  nth_error figs 0 = Some [c] /\ nth_error (rects c) 1 = Some r /\ r = mkRect 68 0 28 28 "#EE7733" /\ saved <> nth_error figs 0.
Proof.
  do 4 eexists. split; [reflexivity|]. split; [reflexivity|]. split; [reflexivity|]. split.
  - unfold c_pixels_last, z_wheres_last. cbn [Nat.eqb]. f_equal; rewrite !INR_IZR_INZ; cbn [Z.of_nat Pos.of_succ_nat Pos.succ]; lra.
  - cbn. intros [= E]. apply (f_equal (fun f => f 0%nat 0%nat)) in E. cbn in E. lra.
Qed.
