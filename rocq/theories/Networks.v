(** Model of the networks of /repo/experiments/annealing/models.py (ResMLPJ,
    ConditionalMultivariateNormal, paper_model) and of /repo/experiments/apgs/models.py (the encoders
    and the decoder), with torch's layers modelled from their documentation.

    Simplifications: arithmetic is exact; a tensor is a function of its indices; the axes a layer maps
    over are arguments of the function it is applied to.  [nn.Linear(n, m)] reads the entries below
    [n]; a last axis of another size (an error of torch) is not represented, except where said. *)
From Verif Require Export Tempering Affine.
Close Scope R_scope.
Open Scope nat_scope.

Definition vec := nat -> R.
(** x[0] + ... + x[n-1] *)
Definition total (n : nat) (x : vec) : R := rsum (map x (seq 0 n)).

(** ** torch.nn *)
(** the parameters of nn.Linear(n, m): weight[j][i] and bias[j] *)
Record lin : Type := mkLin { lin_in : nat; lin_w : nat -> vec; lin_b : vec }.
Definition linear (l : lin) (x : vec) : vec := fun j => (total (lin_in l) (fun i => lin_w l j i * x i) + lin_b l j)%R.
Definition relu (x : vec) : vec := fun j => Rmax 0 (x j).
Definition vtanh (x : vec) : vec := fun j => tanh (x j).
Definition vsigmoid (x : vec) : vec := fun j => sigmoid (x j).
Definition vexp (x : vec) : vec := fun j => exp (x j).
Definition softplus (x : R) : R := ln (1 + exp x).
(** F.softmax(x, -1) of a fiber of [n] entries *)
Definition vsoftmax (n : nat) (x : vec) : vec := fun j => (exp (x j) / total n (fun i => exp (x i)))%R.

(** ** /repo/experiments/annealing/models.py *)
(** ResMLPJ(dim_in, dim_hidden, dim_out), lines 42-47 *)
Record resmlpj : Type := mkMlp { dim_out : nat; map_joint : lin; map_mu : lin; map_cov : lin }.
(** ResMLPJ.forward, lines 49-53 *)
Definition mlp_forward (net : resmlpj) (x : vec) : vec :=
  let y := relu (linear (map_joint net) x) in
  let mu := fun j => (linear (map_mu net) y j + x j)%R in
  let cov_emb := linear (map_cov net) y in
  fun j => if j <? dim_out net then mu j else cov_emb (j - dim_out net).
(** ResMLPJ.initialize_, lines 55-62 *)
Definition lin_reset (l : lin) (offset : vec) : lin := mkLin (lin_in l) (fun _ _ => 0%R) (fun j => (0 + offset j)%R).
Definition mlp_initialize (net : resmlpj) (loc_offset cov_emb : vec) : resmlpj :=
  mkMlp (dim_out net) (map_joint net) (lin_reset (map_mu net) loc_offset) (lin_reset (map_cov net) cov_emb).

(** ConditionalMultivariateNormal, lines 130-149.  [cov] is not used beyond its diagonal, [loc] not
    beyond its shape. *)
Record cmvn : Type := mkCmvn { ext_from : string; ext_to : string; k_net : resmlpj; k_reparameterized : bool }.
Definition new_cmvn (ext_from ext_to : string) (loc : vec) (cov : nat -> vec) (net : resmlpj) (rep : bool) : cmvn :=
  let cov_emb := fun i => ln (exp (cov i i) - 1) in
  mkCmvn ext_from ext_to (mlp_initialize net (fun _ => 0%R) cov_emb) rep.
(** ConditionalMultivariateNormal.model, lines 151-154, for one particle: the moments computed from
    [c[self.ext_from]].  torch.split checks the size of the last axis. *)
Definition cmvn_moments (k : cmvn) (x : vec) : res (vec * (nat -> vec)) :=
  let out := mlp_forward (k_net k) x in
  if 2 * dim_out (k_net k) =? 4 then
    let mu := out in
    let cov_emb := fun j => out (2 + j) in
    Ok (mu, fun i j => if i =? j then softplus (cov_emb i) else 0%R)
  else Err RuntimeError.

(** The density of MultivariateNormal(loc, covariance_matrix) on the plane, for a diagonal
    covariance [(c0, c1)]. *)
Definition normal2 (m0 m1 c0 c1 : R) (v : R * R) : R :=
  (- ((fst v - m0) * (fst v - m0) / c0 + (snd v - m1) * (snd v - m1) / c1) / 2 - ln (2 * PI) - (ln c0 + ln c1) / 2)%R.

(** paper_model(num_targets), lines 265-295.  [fwd i], [rev i]: the networks as they are created. *)
Definition eye2 (s : R) : nat -> vec := fun i j => if i =? j then s else 0%R.
Definition paper_g0 : tdensity (R * R) := Distr "g0" (normal2 0 0 25 25).
Definition paper_gK (n : Z) : res (tdensity (R * R)) :=
  rmap (fun locs => Dens (gname_z (n - 1)) (fun v => match gmm_log_density (map (fun l => normal2 (fst l) (snd l) (1 / 2) (1 / 2)) locs) v with Ok r => r | Err _ => 0%R end))
       (ring_locs 10 8).
Definition paper_kernel (from to : nat) (std : R) (rep : bool) (net : resmlpj) : cmvn :=
  new_cmvn (gname from) (gname to) (fun _ => 0%R) (eye2 (std * std)) net rep.
Definition paper_model (fwd rev : nat -> resmlpj) (n : Z) : res (list (tdensity (R * R)) * list cmvn * list cmvn) :=
  rbind (paper_gK n) (fun gK =>
  rbind (anneal_between paper_g0 gK n) (fun targets =>
  Ok (targets,
      map (fun i => paper_kernel i (i + 1) 1 true (fwd i)) (seq 0 (Z.to_nat (n - 1))),
      map (fun i => paper_kernel (i + 1) i 1 false (rev i)) (seq 0 (Z.to_nat (n - 1)))))).

(** ** /repo/experiments/apgs/models.py *)
(** [.view(S * B, ...)] of an (S, B, ...) tensor, and back *)
Definition merge {A} (B : nat) (x : nat -> nat -> A) : nat -> A := fun n => x (n / B) (n mod B).
Definition unmerge {A} (B : nat) (x : nat -> A) : nat -> nat -> A := fun s b => x (s * B + b).
(** an image of [n] columns as a row of pixels, and back *)
Definition pixels (n : nat) (im : image) : vec := fun p => im (p / n) (p mod n).
Definition unpixels (n : nat) (x : vec) : image := fun i j => x (i * n + j).
(** F.conv2d(input.unsqueeze(0), weight.unsqueeze(1), groups=G) on [G] images and [G] square kernels of
    [DP] pixels, with the first axis of the result dropped *)
Definition conv2d (DP : nat) (input weight : nat -> image) : nat -> image := fun g i j =>
  total DP (fun u => total DP (fun v => (input g (i + u)%nat (j + v)%nat * weight g u v)%R)).

Section Apg.
  (** init_models, lines 28-73: the frame and digit sizes, K, and the layers *)
  Context (FP DP K : nat).
  Record where_net : Type := mkWhere { enc_hidden : lin; mean1 : lin; mean2 : lin; std1 : lin; std2 : lin }.
  Record what_net : Type := mkWhat { digit1 : lin; digit2 : lin; digit_mean : lin; digit_std : lin }.
  Record dec_net : Type := mkDecN { dec1 : lin; dec2 : lin; dec3 : lin }.

  (** _Decoder.get_conv_kernel, lines 287-293.  z_what: (S, B, K, z_what_dim); result: (S, B, K). *)
  Definition get_conv_kernel (D : dec_net) (DP2 : nat) (z_what : nat -> nat -> nat -> vec) : nat -> nat -> nat -> image :=
    let digit_mean s b k := vsigmoid (linear (dec3 D) (relu (linear (dec2 D) (relu (linear (dec1 D) (z_what s b k)))))) in
    fun s b k => unpixels (Nat.sqrt DP2) (digit_mean s b k).

  (** The loop of Enc_coor.model, lines 127-171, up to object [k]: what is left of frame [t].
      [kernel]: (S, B, K) images; [zs k]: the (S, B, 2) position of object [k], sampled (forward) or
      retrieved from the conditioning trace (reverse). *)
  Definition place_object (B : nat) (kernel : nat -> nat -> nat -> image) (k : nat) (z : nat -> nat -> vec) : nat -> nat -> image :=
    let recon := digit_to_frame FP DP B 1 1 (fun s b _ => kernel s b k) (fun s b _ _ => z s b) in
    fun s b => recon s b 0 0.
  Fixpoint frame_left (B : nat) (frame : nat -> nat -> image) (kernel : nat -> nat -> nat -> image) (zs : nat -> nat -> nat -> vec) (k : nat)
    : nat -> nat -> image :=
    match k with
    | O => frame
    | S k' => let left := frame_left B frame kernel zs k' in
              let recon_k := place_object B kernel k' (zs k') in
              fun s b i j => (left s b i j - recon_k s b i j)%R
    end.
  (** (q_mean[:, :, k, :], q_std[:, :, k, :]), lines 127-151; conv_kernel is given *)
  Definition coor_moments (E : where_net) (B : nat) (frames : nat -> nat -> nat -> image) (kernel : nat -> nat -> nat -> image)
      (t : nat) (zs : nat -> nat -> nat -> vec) (k : nat) : nat -> nat -> vec * vec :=
    let left := frame_left B (fun s b => frames s b t) kernel zs k in
    let conved := unmerge B (conv2d DP (merge B left) (merge B (fun s b => kernel s b k))) in
    let CP := FP - DP + 1 in
    fun s b =>
      let p := vsoftmax (CP * CP) (pixels CP (conved s b)) in
      let hidden := relu (linear (enc_hidden E) p) in
      (vtanh (linear (mean2 E) (relu (linear (mean1 E) hidden))), vexp (linear (std2 E) (relu (linear (std1 E) hidden)))).

  (** the (q_mu, q_std) of Enc_digit.model, lines 225-240.  z_where: (S, B, T, K, 2); [T_] frames. *)
  Definition digit_moments (E : what_net) (B T_ : nat) (frames : nat -> nat -> nat -> image) (z_where : nat -> nat -> nat -> nat -> vec)
    : nat -> nat -> nat -> vec * vec :=
    let cropped := frame_to_digit FP DP B T_ K frames z_where in
    let hidden_t s b t k := relu (linear (digit2 E) (relu (linear (digit1 E) (pixels DP (cropped s b t k))))) in
    let hidden s b k := fun j => (total T_ (fun t => hidden_t s b t k j) / INR T_)%R in
    fun s b k => (linear (digit_mean E) (hidden s b k), vexp (linear (digit_std E) (hidden s b k))).

  (** the probabilities of DecoderFull.model, lines 377-384.  z_where: (S, B, T, K, 2) *)
  Definition clamp01 (x : R) : R := Rmin (Rmax x 0) 1.
  Definition EPS : R := / 10 ^ 9.
  Definition recon_probs (D : dec_net) (B T_ DP2 : nat) (z_what : nat -> nat -> nat -> vec) (z_where : nat -> nat -> nat -> nat -> vec)
    : nat -> nat -> nat -> image :=
    let digits := digit_to_frame FP DP B T_ K (get_conv_kernel D DP2 z_what) z_where in
    fun s b t i j => (clamp01 (total K (fun k => digits s b t k i j)) + EPS)%R.
End Apg.
