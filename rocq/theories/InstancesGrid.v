(** Populations of coins of every size: N particles for each of B batch entries.  The particles'
    coins are thrown with one common number, which the population laws allow; the offsets of
    the batch entries are equal as well. *)
From Coq Require Import Lra.
From Coquelicot Require Import Coquelicot.
From Verif Require Import SpecParticles Thm_Systematic InstancesPop.
Open Scope nat_scope.

Definition grid (N B : nat) (f : nat -> nat -> R) : ten := Ten (mkArr [N; B] (fun i => Fin (f (nth 0 i 0) (nth 1 i 0)))).
Definition GridP (N B : nat) : population PopL OneL := mkPopulation PopL OneL slice (fun s b d => d s b)
  (fun d f => (1 / 4 * f (grid N B (fun _ _ => 1)) + 1 / 2 * f (grid N B (fun s b => if d s b then 1 else 0)) + 1 / 4 * f (grid N B (fun _ _ => 0)))%R)
  (fun f => RInt (fun u => f (Ten (mkArr [B] (fun _ => Fin u)))) 0 1).

Lemma grid_particles N B f : particles PopV N B (grid N B f).
Proof. split; reflexivity. Qed.
Lemma grid_part N B s b f : slice s b (grid N B f) = [f s b].
Proof. reflexivity. Qed.

Lemma in_grid N B s b : In [s; b] (indices [N; B]) <-> s < N /\ b < B.
Proof.
  rewrite indices_spec. cbn [length]. split.
  - intros [_ H]. split; [apply (H 0); lia|apply (H 1); lia].
  - intros [H1 H2]. split; [reflexivity|]. intros [|[|d]] Hd; cbn; lia.
Qed.
Lemma grid_index N B i : In i (indices [N; B]) -> exists s b, i = [s; b] /\ s < N /\ b < B.
Proof.
  intros H. pose proof H as G. apply indices_spec in G. destruct G as [G _]. destruct i as [|s [|b [|]]]; try discriminate. exists s, b. split; [reflexivity|]. apply in_grid, H.
Qed.
Lemma grid_weights N B a f : shape a = [N; B] -> (forall s b, s < N -> b < B -> exists r, at_ a [s; b] = Fin r /\ f s b = r) ->
  log_weights PopV N B (Ten a) /\ forall s b, s < N -> b < B -> entry PopV s b (Ten a) = f s b.
Proof.
  intros Hs H. split.
  - split; [|exact Hs]. split; [split; [reflexivity|cbn; rewrite Hs; reflexivity]|].
    cbn [to_arr PopV arr_of]. rewrite Hs. intros i Hi. apply grid_index in Hi. destruct Hi as (s & b & -> & Hi & Hb). destruct (H s b Hi Hb) as (r & -> & _). eauto.
  - intros s b Hi Hb. destruct (H s b Hi Hb) as (r & E & <-). unfold entry. cbn [to_arr PopV arr_of]. rewrite E. reflexivity.
Qed.
Lemma grid_inv N B x : log_weights PopV N B x -> exists a, x = Ten a /\ shape a = [N; B] /\ forall s b, s < N -> b < B -> at_ a [s; b] = Fin (entry PopV s b x).
Proof.
  intros [[[Ht _] Hf] Hs]. destruct x as [r|a]; [discriminate|]. exists a. split; [reflexivity|]. split; [exact Hs|].
  intros s b Hi Hb. destruct (Hf [s; b]) as [r Hr]; [rewrite Hs; apply in_grid; auto|].
  unfold entry. cbn [to_arr PopV arr_of] in *. rewrite Hr. reflexivity.
Qed.
Lemma GridP_laws N B : population_laws PopV N B (GridP N B) coins.
Proof.
  constructor.
  - reflexivity.
  - intros x y Hx Hy. apply grid_inv in Hx, Hy. destruct Hx as (a & -> & Sa & Ha), Hy as (c & -> & Sc & Hc).
    cbn [tadd PopL pop_add]. apply (grid_weights N B (mkArr (smax (shape a) (shape c)) (at_plus a c)) (fun s b => entry PopV s b (Ten a) + entry PopV s b (Ten c))%R).
    + cbn [shape]. rewrite Sa, Sc. apply smax_id.
    + intros s b Hs Hb. eexists. split; [|reflexivity]. cbn [at_]. unfold at_plus. rewrite Ha, Hc by assumption. reflexivity.
  - intros x y Hx Hy. apply grid_inv in Hx, Hy. destruct Hx as (a & -> & Sa & Ha), Hy as (c & -> & Sc & Hc).
    cbn [tsub PopL pop_sub]. apply (grid_weights N B (mkArr (smax (shape a) (shape c)) (at_minus a c)) (fun s b => entry PopV s b (Ten a) - entry PopV s b (Ten c))%R).
    + cbn [shape]. rewrite Sa, Sc. apply smax_id.
    + intros s b Hs Hb. eexists. split; [|reflexivity]. cbn [at_]. unfold at_minus. rewrite Ha, Hc by assumption. reflexivity.
  - intros x Hx. apply grid_inv in Hx. destruct Hx as (a & -> & Sa & Ha). cbn [tsub tzero PopL pop_sub].
    apply (grid_weights N B (mkArr (shape a) (at_shift (- 0) a)) (fun s b => entry PopV s b (Ten a))).
    + exact Sa.
    + intros s b Hs Hb. eexists. split; [|reflexivity]. cbn [at_]. unfold at_shift. rewrite Ha by assumption. cbn. f_equal. ring.
  - intros x Hx. apply grid_inv in Hx. destruct Hx as (a & -> & Sa & Ha). cbn [tsub tzero PopL pop_sub].
    apply (grid_weights N B (mkArr (shape a) (at_unshift 0 a)) (fun s b => - entry PopV s b (Ten a))%R).
    + exact Sa.
    + intros s b Hs Hb. eexists. split; [|reflexivity]. cbn [at_]. unfold at_unshift. rewrite Ha by assumption. cbn. f_equal. ring.
  - cbn. f_equal. ring.
  - reflexivity.
  - intros x y s s' b [_ Hx] Hsh Hs Hs' Hb H. cbn [part GridP]. unfold slice. cbn [to_arr PopV] in *. rewrite Hsh. apply map_ext_in. intros i Hi.
    f_equal. apply H. destruct (shape (arr_of x)) as [|n [|m sh]]; try discriminate. cbn [firstn] in Hx. injection Hx as -> ->. cbn [skipn] in Hi.
    apply in_flat_map. exists s. split; [apply in_seq; lia|]. apply in_map, in_flat_map. exists b. split; [apply in_seq; lia|]. apply in_map, Hi.
  - intros d v [Hv Hs]. split.
    + split; [split; [reflexivity|exact Hs]|]. intros i _. eexists. reflexivity.
    + intros s b _ _. cbn. unfold slice. cbn [arr_of shape at_]. rewrite map_map. apply map_ext. intros i. reflexivity.
  - intros x [[Hx Hs] Hf]. destruct x as [r|a]; [discriminate|]. cbn [bsum PopL pop_bsum].
    apply (grid_weights N B (mkArr (firstn 2 (shape a)) (at_bsum a)) (fun s b => rsum (slice s b (Ten a)))).
    + exact Hs.
    + intros s b Hs' Hb. eexists. split; reflexivity.
  - intros d f g H. cbn [mean GridP]. rewrite !H by (split; reflexivity). reflexivity.
  - intros d f g. cbn [mean GridP]. ring.
  - intros d c f. cbn [mean GridP]. ring.
  - intros d s b g Hs Hb. cbn [mean GridP part integral space coins dpart]. rewrite !coin_mass, !grid_part, heads0, heads1. destruct (d s b); field.
  - intros f g H. cbn [mean_offset GridP]. apply RInt_ext. intros u Hu. rewrite Rmin_left, Rmax_right in Hu by lra. apply H. intros b Hb.
    unfold offset. cbn. lra.
  - intros b g l Hb Hg. cbn [mean_offset GridP]. apply is_RInt_unique. eapply is_RInt_ext; [|exact Hg]. intros u _. reflexivity.
Qed.
