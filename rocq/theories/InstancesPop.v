(** An instance of the torch boundary for populations: tensors are arrays of extended reals,
    a Python float is a real number; N = 2 particles, B = 1 batch entry.  Distributions are
    coins, one per particle.  Used by the non-vacuity examples of C59. *)
From Coq Require Import Lra FunctionalExtensionality.
From Coquelicot Require Import Coquelicot.
From Verif Require Export SpecParticles Instances.
Open Scope nat_scope.

Inductive ten : Type := Flt (r : R) | Ten (a : arr).
Definition eplus (x y : ereal) : ereal := match x, y with Fin a, Fin b => Fin (a + b)%R | _, _ => NInf end.
Definition eminus (x y : ereal) : ereal := match x, y with Fin a, Fin b => Fin (a - b)%R | _, _ => NInf end.
(** the shape of a sum of two tensors *)
Fixpoint smax (a b : list nat) : list nat :=
  match a, b with
  | [], _ => b
  | _, [] => a
  | x :: a', y :: b' => Nat.max x y :: smax a' b'
  end.
Definition at_plus (a b : arr) (i : list nat) : ereal := eplus (at_ a i) (at_ b i).
Definition at_minus (a b : arr) (i : list nat) : ereal := eminus (at_ a i) (at_ b i).
Definition at_shift (r : R) (a : arr) (i : list nat) : ereal := eplus (Fin r) (at_ a i).
Definition at_unshift (r : R) (a : arr) (i : list nat) : ereal := eminus (Fin r) (at_ a i).
Definition pop_add (x y : ten) : ten :=
  match x, y with
  | Flt r, Flt q => Flt (r + q)
  | Flt r, Ten a | Ten a, Flt r => Ten (mkArr (shape a) (at_shift r a))
  | Ten a, Ten b => Ten (mkArr (smax (shape a) (shape b)) (at_plus a b))
  end.
Definition pop_sub (x y : ten) : ten :=
  match x, y with
  | Flt r, Flt q => Flt (r - q)
  | Flt r, Ten a => Ten (mkArr (shape a) (at_unshift r a))
  | Ten a, Flt r => Ten (mkArr (shape a) (at_shift (- r) a))
  | Ten a, Ten b => Ten (mkArr (smax (shape a) (shape b)) (at_minus a b))
  end.
(** the coin [true] shows 1 with probability 3/4, the coin [false] with probability 1/4 *)
Definition heads (d : bool) (v : R) : R := if Req_EM_T v 1 then (if d then 3 / 4 else 1 / 4)%R else (if d then 1 / 4 else 3 / 4)%R.
Definition at_logp (d : nat -> nat -> bool) (a : arr) (i : list nat) : ereal :=
  Fin (ln (heads (d (nth 0 i 0) (nth 1 i 0)) (fin (at_ a i)))).
Definition arr_of (x : ten) : arr := match x with Flt r => mkArr [] (fun _ => Fin r) | Ten a => a end.
(** the numbers a particle holds of a tensor *)
Definition slice (s b : nat) (x : ten) : list R :=
  map (fun i => fin (at_ (arr_of x) (s :: b :: i))) (indices (skipn 2 (shape (arr_of x)))).
Definition at_bsum (a : arr) (i : list nat) : ereal := Fin (rsum (slice (nth 0 i 0) (nth 1 i 0) (Ten a))).
Definition pop_bsum (x : ten) : ten :=
  match x with Flt r => Flt r | Ten a => Ten (mkArr (firstn 2 (shape a)) (at_bsum a)) end.
Definition PopL : lib := {|
  T := ten; D := nat -> nat -> bool;
  tzero := Flt 0;
  tadd := pop_add; tsub := pop_sub; detach := fun x => x;
  is_tensor := fun x => match x with Ten _ => true | Flt _ => false end;
  to_tensor := fun x => Ten (arr_of x);
  eq_zero := fun x => Ok (match x with Flt r => if Req_EM_T r 0 then true else false | _ => false end);
  tensor_equal := fun _ _ => true;
  bsum := fun _ _ => pop_bsum;
  logp := fun d x => Ten (mkArr (shape (arr_of x)) (at_logp d (arr_of x)));
  lj_ok := fun _ _ _ => true;
  order := fun l => l
|}.
Definition PopV : array_view PopL := mkView PopL arr_of Ten (fun _ => eq_refl) (fun _ => eq_refl).

Lemma eplus_comm x y : eplus x y = eplus y x.
Proof. destruct x, y; cbn; try reflexivity. f_equal. ring. Qed.
Lemma eplus_assoc x y z : eplus x (eplus y z) = eplus (eplus x y) z.
Proof. destruct x, y, z; cbn; try reflexivity. f_equal. ring. Qed.
Lemma smax_comm a : forall b, smax a b = smax b a.
Proof. induction a as [|x a IH]; intros [|y b]; cbn; try reflexivity. f_equal; [lia|apply IH]. Qed.
Lemma smax_assoc a : forall b c, smax a (smax b c) = smax (smax a b) c.
Proof. induction a as [|x a IH]; intros [|y b] [|z c]; cbn; try reflexivity. f_equal; [lia|apply IH]. Qed.
Lemma smax_id a : smax a a = a.
Proof. induction a as [|x a IH]; cbn; [reflexivity|]. rewrite IH. f_equal. lia. Qed.
Lemma PopL_laws : lib_laws PopL.
Proof.
  constructor; cbn.
  - intros [r|a] [q|b]; cbn; try reflexivity; [f_equal; ring|]. do 2 f_equal; [apply smax_comm|]. extensionality i. apply eplus_comm.
  - intros [r|a] [q|b] [u|c]; cbn; f_equal; try ring; f_equal; try apply smax_assoc; extensionality i; unfold at_plus, at_shift; cbn [at_];
      destruct (at_ a i) || idtac; destruct (at_ b i) || idtac; destruct (at_ c i) || idtac; cbn; try reflexivity; f_equal; ring.
  - intros [r|[sh f]]; cbn; [f_equal; ring|]. do 2 f_equal. extensionality i. unfold at_shift. cbn. destruct (f i); cbn; [reflexivity|]. f_equal. ring.
  - intros l. reflexivity.
Qed.

(** one particle: lists of numbers; log-densities add up by concatenation *)
Definition OneL : lib := {|
  T := list R; D := bool;
  tzero := []; tadd := fun x y => x ++ y; tsub := fun x y => x ++ map Ropp y; detach := fun x => x;
  is_tensor := fun _ => true; to_tensor := fun x => x;
  eq_zero := fun x => Ok (match x with [] => true | _ => false end); tensor_equal := fun _ _ => true;
  bsum := fun _ _ x => x;
  logp := fun d v => map (fun x => ln (heads d x)) v;
  lj_ok := fun _ _ _ => true;
  order := fun l => l
|}.
Definition coins : measures OneL :=
  mkMeasures OneL rsum unit (fun _ => tt) (fun _ f => (f [0%R] + f [1%R])%R).
Lemma rsum_app l l' : rsum (l ++ l') = (rsum l + rsum l')%R.
Proof. unfold rsum. induction l as [|x l IH]; cbn; [ring|]. rewrite IH. ring. Qed.
Lemma rsum_opp l : rsum (map Ropp l) = (- rsum l)%R.
Proof. unfold rsum. induction l as [|x l IH]; cbn; [ring|]. rewrite IH. ring. Qed.
Lemma heads_pos d v : (0 < heads d v)%R.
Proof. unfold heads. destruct (Req_EM_T v 1), d; lra. Qed.
Lemma heads1 d : heads d 1 = (if d then 3 / 4 else 1 / 4)%R.
Proof. unfold heads. destruct (Req_EM_T 1 1); [reflexivity|congruence]. Qed.
Lemma heads0 d : heads d 0 = (if d then 1 / 4 else 3 / 4)%R.
Proof. unfold heads. destruct (Req_EM_T 0 1) as [H|H]; [lra|reflexivity]. Qed.
Lemma heads_sum d : (heads d 0 + heads d 1 = 1)%R.
Proof. rewrite heads0, heads1. destruct d; lra. Qed.
Lemma coin_mass d v : pmass coins d [v] = heads d v.
Proof. unfold pmass. cbn. rewrite Rplus_0_r. apply exp_ln, heads_pos. Qed.
Lemma coins_laws : measure_laws coins.
Proof.
  constructor; cbn; intros; try reflexivity.
  - apply rsum_app.
  - rewrite rsum_app, rsum_opp. ring.
  - rewrite !H. reflexivity.
  - ring.
  - ring.
  - rewrite !Rplus_0_r, !exp_ln by apply heads_pos. apply heads_sum.
Qed.

Definition col2 (x y : R) : ten := Ten (mkArr [2; 1] (fun i => Fin (if nth 0 i 0 =? 0 then x else y))).
Definition PopP : population PopL OneL := mkPopulation PopL OneL slice (fun s b d => d s b)
  (fun d f => (heads (d 0%nat 0%nat) 0 * heads (d 1%nat 0%nat) 0 * f (col2 0 0) + heads (d 0%nat 0%nat) 0 * heads (d 1%nat 0%nat) 1 * f (col2 0 1) +
               heads (d 0%nat 0%nat) 1 * heads (d 1%nat 0%nat) 0 * f (col2 1 0) + heads (d 0%nat 0%nat) 1 * heads (d 1%nat 0%nat) 1 * f (col2 1 1))%R)
  (fun f => RInt (fun u => f (Ten (mkArr [1] (fun _ => Fin u)))) 0 1).

Lemma in_21 i : In i (indices [2; 1]) -> exists s, i = [s; 0] /\ s < 2.
Proof. cbn. intros [<-|[<-|[]]]; eexists; (split; [reflexivity|lia]). Qed.
Lemma pop_weights a f : shape a = [2; 1] -> (forall s, s < 2 -> exists r, at_ a [s; 0] = Fin r /\ f s = r) ->
  log_weights PopV 2 1 (Ten a) /\ forall s b, s < 2 -> b < 1 -> entry PopV s b (Ten a) = f s.
Proof.
  intros Hs H. split.
  - split; [|exact Hs]. split; [split; [reflexivity|cbn; rewrite Hs; reflexivity]|].
    cbn [to_arr PopV arr_of]. rewrite Hs. intros i Hi. apply in_21 in Hi. destruct Hi as (s & -> & Hi). destruct (H s Hi) as (r & -> & _). eauto.
  - intros s b Hi Hb. assert (b = 0) as -> by lia. destruct (H s Hi) as (r & E & <-). unfold entry. cbn [to_arr PopV arr_of]. rewrite E. reflexivity.
Qed.
Lemma pop_inv x : log_weights PopV 2 1 x -> exists a, x = Ten a /\ shape a = [2; 1] /\ forall s, s < 2 -> at_ a [s; 0] = Fin (entry PopV s 0 x).
Proof.
  intros [[[Ht _] Hf] Hs]. destruct x as [r|a]; [discriminate|]. exists a. split; [reflexivity|]. split; [exact Hs|].
  intros s Hi. destruct (Hf [s; 0]) as [r Hr]; [rewrite Hs; cbn; destruct s as [|[|s]]; [left|right; left|lia]; reflexivity|].
  unfold entry. cbn [to_arr PopV arr_of] in *. rewrite Hr. reflexivity.
Qed.
Lemma PopP_laws : population_laws PopV 2 1 PopP coins.
Proof.
  constructor.
  - reflexivity.
  - intros x y Hx Hy. apply pop_inv in Hx, Hy. destruct Hx as (a & -> & Sa & Ha), Hy as (c & -> & Sc & Hc).
    cbn [tadd PopL pop_add]. destruct (pop_weights (mkArr (smax (shape a) (shape c)) (at_plus a c)) (fun s => entry PopV s 0 (Ten a) + entry PopV s 0 (Ten c))%R) as [H1 H2].
    + cbn [shape]. rewrite Sa, Sc. reflexivity.
    + intros s Hs. eexists. split; [|reflexivity]. cbn [at_]. unfold at_plus. rewrite Ha, Hc by exact Hs. reflexivity.
    + split; [exact H1|]. intros s b Hs Hb. rewrite H2 by assumption. assert (b = 0) as -> by lia. reflexivity.
  - intros x y Hx Hy. apply pop_inv in Hx, Hy. destruct Hx as (a & -> & Sa & Ha), Hy as (c & -> & Sc & Hc).
    cbn [tsub PopL pop_sub]. destruct (pop_weights (mkArr (smax (shape a) (shape c)) (at_minus a c)) (fun s => entry PopV s 0 (Ten a) - entry PopV s 0 (Ten c))%R) as [H1 H2].
    + cbn [shape]. rewrite Sa, Sc. reflexivity.
    + intros s Hs. eexists. split; [|reflexivity]. cbn [at_]. unfold at_minus. rewrite Ha, Hc by exact Hs. reflexivity.
    + split; [exact H1|]. intros s b Hs Hb. rewrite H2 by assumption. assert (b = 0) as -> by lia. reflexivity.
  - intros x Hx. apply pop_inv in Hx. destruct Hx as (a & -> & Sa & Ha). cbn [tsub tzero PopL pop_sub].
    destruct (pop_weights (mkArr (shape a) (at_shift (- 0) a)) (fun s => entry PopV s 0 (Ten a))) as [H1 H2].
    + exact Sa.
    + intros s Hs. eexists. split; [|reflexivity]. cbn [at_]. unfold at_shift. rewrite Ha by exact Hs. cbn. f_equal. ring.
    + split; [exact H1|]. intros s b Hs Hb. rewrite H2 by assumption. assert (b = 0) as -> by lia. reflexivity.
  - intros x Hx. apply pop_inv in Hx. destruct Hx as (a & -> & Sa & Ha). cbn [tsub tzero PopL pop_sub].
    destruct (pop_weights (mkArr (shape a) (at_unshift 0 a)) (fun s => - entry PopV s 0 (Ten a))%R) as [H1 H2].
    + exact Sa.
    + intros s Hs. eexists. split; [|reflexivity]. cbn [at_]. unfold at_unshift. rewrite Ha by exact Hs. cbn. f_equal. ring.
    + split; [exact H1|]. intros s b Hs Hb. rewrite H2 by assumption. assert (b = 0) as -> by lia. reflexivity.
  - cbn. f_equal. ring.
  - reflexivity.
  - intros x y s s' b [_ Hx] Hsh Hs Hs' Hb H. cbn [part PopP]. unfold slice. cbn [to_arr PopV] in *. rewrite Hsh. apply map_ext_in. intros i Hi.
    f_equal. apply H. destruct (shape (arr_of x)) as [|n [|m sh]]; try discriminate. cbn [firstn] in Hx. injection Hx as -> ->. cbn [skipn] in Hi.
    apply in_flat_map. exists s. split; [apply in_seq; lia|]. apply in_map, in_flat_map. exists b. split; [apply in_seq; lia|]. apply in_map, Hi.
  - intros d v [Hv Hs]. split.
    + split; [split; [reflexivity|exact Hs]|]. intros i _. eexists. reflexivity.
    + intros s b _ _. cbn. unfold slice. cbn [arr_of shape at_]. rewrite map_map. apply map_ext. intros i. reflexivity.
  - intros x [[Hx Hs] Hf]. destruct x as [r|a]; [discriminate|]. cbn [bsum PopL pop_bsum].
    destruct (pop_weights (mkArr (firstn 2 (shape a)) (at_bsum a)) (fun s => rsum (slice s 0 (Ten a)))) as [H1 H2].
    + exact Hs.
    + intros s Hs'. eexists. split; reflexivity.
    + split; [exact H1|]. intros s b Hs' Hb. rewrite H2 by assumption. assert (b = 0) as -> by lia. reflexivity.
  - intros d f g H. cbn [mean PopP]. rewrite !H by (split; reflexivity). reflexivity.
  - intros d f g. cbn [mean PopP]. ring.
  - intros d c f. cbn [mean PopP]. ring.
  - intros d s b g Hs Hb. cbn [mean PopP part integral space coins dpart]. rewrite !coin_mass. assert (b = 0) as -> by lia.
    pose proof (heads_sum (d 0%nat 0%nat)). pose proof (heads_sum (d 1%nat 0%nat)).
    assert (E : (heads (d 0%nat 0%nat) 0 = 1 - heads (d 0%nat 0%nat) 1)%R /\ (heads (d 1%nat 0%nat) 0 = 1 - heads (d 1%nat 0%nat) 1)%R) by lra. destruct E as [E1 E2].
    destruct s as [|[|s]]; [| |lia]; cbn [slice col2 arr_of shape at_ skipn indices map nth Nat.eqb fin]; rewrite E1, E2; ring.
  - intros f g H. cbn [mean_offset PopP]. apply RInt_ext. intros u Hu. rewrite Rmin_left, Rmax_right in Hu by lra. apply H. intros b Hb.
    unfold offset. cbn. lra.
  - intros b g l Hb Hg. cbn [mean_offset PopP]. apply is_RInt_unique. eapply is_RInt_ext; [|exact Hg]. intros u _. reflexivity.
Qed.
