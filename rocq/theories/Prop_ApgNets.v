(** C74: the encoders and the decoder of the Gibbs experiment treat every particle on its own. *)
From Coq Require Import Reals Lra Lia.
From Verif Require Import Networks Prop_Affine.
Close Scope R_scope.
Open Scope nat_scope.

(** ** Specification: the networks for one particle, without batch axes *)
Section One.
  Context (FP DP : nat).
  (** a digit of [DP] pixels drawn at position [z] of a frame of [FP] pixels, and a patch cut out at [z] *)
  Definition drawn (digit : image) (z : vec) : image := fun i j =>
    grid_sample digit DP
      (scale_dtof FP DP * coord FP j - z 0%nat * translation_dtof FP DP)%R (scale_dtof FP DP * coord FP i + z 1%nat * translation_dtof FP DP)%R.
  Definition patch (frame : image) (z : vec) : image := fun i j =>
    grid_sample frame FP
      (scale_ftod FP DP * coord DP j + z 0%nat * translation_ftod FP DP)%R (scale_ftod FP DP * coord DP i - z 1%nat * translation_ftod FP DP)%R.
  (** the frame without its first [k] objects *)
  Definition residual (frame : image) (digits : nat -> image) (z : nat -> vec) (k : nat) : image := fun i j =>
    (frame i j - total k (fun k' => drawn (digits k') (z k') i j))%R.
  (** how well a digit fits at each place of a frame *)
  Definition match_at (frame digit : image) : image := fun i j =>
    total DP (fun u => total DP (fun v => (frame (i + u)%nat (j + v)%nat * digit u v)%R)).
  (** the position of object [k] *)
  Definition where_features (E : where_net) (frame : image) (digits : nat -> image) (z : nat -> vec) (k : nat) : vec :=
    let CP := FP - DP + 1 in
    relu (linear (enc_hidden E) (vsoftmax (CP * CP) (pixels CP (match_at (residual frame digits z k) (digits k))))).
  Definition where_mean (E : where_net) frame digits z k : vec := vtanh (linear (mean2 E) (relu (linear (mean1 E) (where_features E frame digits z k)))).
  Definition where_std (E : where_net) frame digits z k : vec := vexp (linear (std2 E) (relu (linear (std1 E) (where_features E frame digits z k)))).
  (** the features of an object that is at [z t] of frame [t] *)
  Definition what_features (E : what_net) (T_ : nat) (frames : nat -> image) (z : nat -> vec) : vec := fun j =>
    (total T_ (fun t => relu (linear (digit2 E) (relu (linear (digit1 E) (pixels DP (patch (frames t) (z t)))))) j) / INR T_)%R.
  (** the digit image of [z_what] *)
  Definition decoded (D : dec_net) (z_what : vec) : image :=
    fun i j => sigmoid (linear (dec3 D) (relu (linear (dec2 D) (relu (linear (dec1 D) z_what)))) (i * DP + j)).
End One.

(** ** Proofs *)
Lemma total_ext n f g : (forall i, i < n -> f i = g i) -> total n f = total n g.
Proof. intros H. unfold total. f_equal. apply map_ext_in. intros i Hi. apply in_seq in Hi. apply H. lia. Qed.
Lemma rsum_snoc l x : rsum (l ++ [x]) = (rsum l + x)%R.
Proof. unfold rsum. induction l as [|y l IH]; cbn; [lra|]. rewrite IH. lra. Qed.
Lemma total_S n f : total (S n) f = (total n f + f n)%R.
Proof. unfold total. rewrite seq_S, map_app. cbn [map Nat.add]. apply rsum_snoc. Qed.
Lemma linear_ext l x y j : (forall i, x i = y i) -> linear l x j = linear l y j.
Proof. intros H. unfold linear. f_equal. apply total_ext. intros i _. rewrite H. reflexivity. Qed.
Lemma relu_ext x y j : x j = y j -> relu x j = relu y j.
Proof. intros H. unfold relu. rewrite H. reflexivity. Qed.
Lemma vsoftmax_ext n x y j : (forall i, x i = y i) -> vsoftmax n x j = vsoftmax n y j.
Proof. intros H. unfold vsoftmax. rewrite H. f_equal. apply total_ext. intros i _. rewrite H. reflexivity. Qed.
Lemma merged {A} B (x : nat -> nat -> A) s b : b < B -> merge B x (s * B + b) = x s b.
Proof.
  intros H. unfold merge. rewrite Nat.div_add_l by lia. rewrite Nat.div_small by exact H. rewrite Nat.add_0_r.
  rewrite Nat.add_comm, Nat.mod_add by lia. rewrite Nat.mod_small by exact H. reflexivity.
Qed.

Section Particles.
  Context (FP DP K : nat).
  Lemma digit_to_frame_drawn B T_ K' digit z s b t k i j : b < B -> t < T_ -> k < K' ->
    digit_to_frame FP DP B T_ K' digit z s b t k i j = drawn FP DP (digit s b k) (z s b t k) i j.
  Proof.
    intros Hb Ht Hk. unfold digit_to_frame, drawn. rewrite !of_flat_flat by assumption. unfold grid_x, grid_y, mk_theta. f_equal; ring.
  Qed.
  Lemma frame_to_digit_patch B T_ K' frames z s b t k i j : b < B -> t < T_ -> k < K' ->
    frame_to_digit FP DP B T_ K' frames z s b t k i j = patch FP DP (frames s b t) (z s b t k) i j.
  Proof.
    intros Hb Ht Hk. unfold frame_to_digit, patch. rewrite !of_flat_flat by assumption. unfold grid_x, grid_y, mk_theta. f_equal; ring.
  Qed.
  Lemma frame_left_residual B frame kernel zs k s b i j : b < B ->
    frame_left FP DP B frame kernel zs k s b i j = residual FP DP (frame s b) (kernel s b) (fun k' => zs k' s b) k i j.
  Proof.
    intros Hb. unfold residual. induction k as [|k IH]; cbn [frame_left]; [unfold total; cbn; lra|].
    rewrite IH, total_S. unfold place_object. rewrite digit_to_frame_drawn by lia. lra.
  Qed.
  Lemma coor_features E B (frames : nat -> nat -> nat -> image) (kernel : nat -> nat -> nat -> image) (t : nat) zs k s b i : b < B ->
    relu (linear (enc_hidden E) (vsoftmax ((FP - DP + 1) * (FP - DP + 1)) (pixels (FP - DP + 1)
      (unmerge B (conv2d DP (merge B (frame_left FP DP B (fun s b => frames s b t) kernel zs k)) (merge B (fun s b => kernel s b k))) s b)))) i
    = where_features FP DP E (frames s b t) (kernel s b) (fun k' => zs k' s b) k i.
  Proof.
    intros Hb. unfold where_features. apply relu_ext, linear_ext. intros p.
    assert (Hx : forall q, pixels (FP - DP + 1) (unmerge B (conv2d DP (merge B (frame_left FP DP B (fun s b => frames s b t) kernel zs k)) (merge B (fun s b => kernel s b k))) s b) q
      = pixels (FP - DP + 1) (match_at DP (residual FP DP (frames s b t) (kernel s b) (fun k' => zs k' s b) k) (kernel s b k)) q).
    { intros q. unfold pixels, unmerge, conv2d, match_at. apply total_ext. intros u _. apply total_ext. intros v _.
      rewrite !merged by exact Hb. rewrite frame_left_residual by exact Hb. reflexivity. }
    apply vsoftmax_ext, Hx.
  Qed.
End Particles.

(** ** The property *)
(** The moments of the position of object [k] of particle [s, b], in a tensor of any number of
    particles: a function of the frame, the digits and the positions of that particle only. *)
Theorem C74_positions : forall FP DP E B frames kernel t zs k s b d, b < B ->
  fst (coor_moments FP DP E B frames kernel t zs k s b) d = where_mean FP DP E (frames s b t) (kernel s b) (fun k' => zs k' s b) k d /\
  snd (coor_moments FP DP E B frames kernel t zs k s b) d = where_std FP DP E (frames s b t) (kernel s b) (fun k' => zs k' s b) k d.
Proof.
  intros FP DP E B frames kernel t zs k s b d Hb. unfold coor_moments, where_mean, where_std, vtanh, vexp. cbn [fst snd].
  split; f_equal; apply linear_ext; intros i; apply relu_ext, linear_ext; intros j; apply (coor_features FP DP E B frames kernel t zs k s b j Hb).
Qed.
Print Assumptions C74_positions.
(** Objects are explained away in order: object [k] does not depend on the positions of later ones. *)
Theorem C74_sequential : forall FP DP E B frames kernel t zs zs' k s b d, b < B ->
  (forall k' d', k' < k -> zs k' s b d' = zs' k' s b d') ->
  fst (coor_moments FP DP E B frames kernel t zs k s b) d = fst (coor_moments FP DP E B frames kernel t zs' k s b) d /\
  snd (coor_moments FP DP E B frames kernel t zs k s b) d = snd (coor_moments FP DP E B frames kernel t zs' k s b) d.
Proof.
  intros FP DP E B frames kernel t zs zs' k s b d Hb H.
  destruct (C74_positions FP DP E B frames kernel t zs k s b d Hb) as [-> ->]. destruct (C74_positions FP DP E B frames kernel t zs' k s b d Hb) as [-> ->].
  assert (Hr : forall i j, residual FP DP (frames s b t) (kernel s b) (fun k' => zs k' s b) k i j = residual FP DP (frames s b t) (kernel s b) (fun k' => zs' k' s b) k i j).
  { intros i j. unfold residual. f_equal. apply total_ext. intros k' Hk'. unfold drawn. rewrite !(H k') by exact Hk'. reflexivity. }
  assert (Hf : forall i, where_features FP DP E (frames s b t) (kernel s b) (fun k' => zs k' s b) k i = where_features FP DP E (frames s b t) (kernel s b) (fun k' => zs' k' s b) k i).
  { intros i. unfold where_features. apply relu_ext, linear_ext. intros p.
    assert (Hm : forall q, pixels (FP - DP + 1) (match_at DP (residual FP DP (frames s b t) (kernel s b) (fun k' => zs k' s b) k) (kernel s b k)) q
       = pixels (FP - DP + 1) (match_at DP (residual FP DP (frames s b t) (kernel s b) (fun k' => zs' k' s b) k) (kernel s b k)) q).
    { intros q. unfold pixels, match_at. apply total_ext. intros u _. apply total_ext. intros v _. rewrite Hr. reflexivity. }
    apply vsoftmax_ext, Hm. }
  unfold where_mean, where_std, vtanh, vexp. split; f_equal; apply linear_ext; intros i; apply relu_ext, linear_ext; exact Hf.
Qed.
Print Assumptions C74_sequential.

(** The moments of the features of object [k] of particle [s, b]: from the frames of that particle and
    the positions of that object over time. *)
Theorem C74_digits : forall FP DP K E B T_ frames z_where k s b d, b < B -> k < K ->
  let h := what_features FP DP E T_ (frames s b) (fun t => z_where s b t k) in
  fst (digit_moments FP DP K E B T_ frames z_where s b k) d = linear (digit_mean E) h d /\
  snd (digit_moments FP DP K E B T_ frames z_where s b k) d = exp (linear (digit_std E) h d).
Proof.
  intros FP DP K E B T_ frames z_where k s b d Hb Hk h. unfold digit_moments, vexp. cbn [fst snd].
  split; [|f_equal]; apply linear_ext; intros j; unfold h, what_features; f_equal; apply total_ext; intros t Ht;
    apply relu_ext, linear_ext; intros i; apply relu_ext, linear_ext; intros p; unfold pixels; apply frame_to_digit_patch; assumption.
Qed.
Print Assumptions C74_digits.

(** The reconstruction of frame [t] of particle [s, b]: its decoded digits drawn at its positions. *)
Theorem C74_reconstruction : forall FP DP K D B T_ z_what z_where s b t i j, b < B -> t < T_ ->
  let p := recon_probs FP DP K D B T_ (DP * DP) z_what z_where s b t i j in
  p = (Rmin (Rmax (total K (fun k => drawn FP DP (decoded DP D (z_what s b k)) (z_where s b t k) i j)) 0) 1 + EPS)%R /\
  (EPS <= p <= 1 + EPS)%R.
Proof.
  intros FP DP K D B T_ z_what z_where s b t i j Hb Ht p. split.
  - unfold p, recon_probs, clamp01. f_equal. f_equal. f_equal. apply total_ext. intros k Hk.
    rewrite digit_to_frame_drawn by assumption. unfold drawn, grid_sample. destruct (_ && _); [|reflexivity].
    unfold get_conv_kernel, unpixels, decoded, vsigmoid. rewrite Nat.sqrt_square. reflexivity.
  - unfold p, recon_probs, clamp01. match goal with |- context [Rmax ?x 0] => set (y := x) end.
    pose proof (Rmax_r y 0). pose proof (Rmin_r (Rmax y 0) 1). assert (0 <= Rmin (Rmax y 0) 1)%R by (apply Rmin_glb; lra). lra.
Qed.
Print Assumptions C74_reconstruction.

(** ** an instance: two particles with different frames get different features, each its own *)
Example C74_case : let E := mkWhere (mkLin 1 (fun _ _ => 1%R) (fun _ => 0%R)) (mkLin 1 (fun _ _ => 0%R) (fun _ => 0%R)) (mkLin 1 (fun _ _ => 0%R) (fun _ => 0%R))
                               (mkLin 1 (fun _ _ => 0%R) (fun _ => 0%R)) (mkLin 1 (fun _ _ => 0%R) (fun _ => 1%R)) in
  let frames s b t : image := fun i j => INR (s + b + i) in
  let kernel s b k : image := fun i j => 1%R in
  conv2d 1 (merge 2 (fun s b => frames s b 0)) (merge 2 (fun s b => kernel s b 0)) 3 0 0 = 2%R /\
  conv2d 1 (merge 2 (fun s b => frames s b 0)) (merge 2 (fun s b => kernel s b 0)) 0 0 0 = 0%R /\
  snd (coor_moments 1 1 E 2 frames kernel 0 (fun _ _ _ _ => 0%R) 0 1 1) 0 = exp 1.
Proof.
  cbv zeta. split; [unfold conv2d, merge, total; cbn; lra|]. split; [unfold conv2d, merge, total; cbn; lra|].
  match goal with |- snd (coor_moments _ _ ?E _ ?fr ?ke _ ?zs _ _ _) _ = _ => destruct (C74_positions 1 1 E 2 fr ke 0 zs 0 1 1 0 ltac:(lia)) as [_ ->] end.
  unfold where_std, vexp. f_equal. unfold linear at 1. cbn [std2 lin_in lin_w lin_b]. unfold total. cbn. lra.
Qed.
