(** C79: what is displayed. *)
From Coq Require Import Ascii Permutation Sorting.Sorted.
From Verif Require Import Base Utils Display KeyFacts Prop_Training.
Open Scope nat_scope.

(** ** C79 Displaying an output or a trace shows all of it *)
(** [s] is part of [t] *)
Definition occurs (s t : string) : Prop := exists a b, t = (a ++ s ++ b)%string.
(** no PropertyDict that is reached through PropertyDicts is empty *)
Inductive filled : pv -> Prop :=
| filled_leaf v : is_prop v = false -> filled v
| filled_prop d : d <> [] -> (forall k x, In (k, x) d -> filled x) -> filled (PProp d).
(** the entry [k]: [v] is in the PropertyDict or in one nested in it, at any depth *)
Inductive holds_entry : pv -> string -> pv -> Prop :=
| holds_here d k v : In (k, v) d -> holds_entry (PProp d) k v
| holds_below d k' x k v : In (k', x) d -> holds_entry x k v -> holds_entry (PProp d) k v.

(** the text of a tensor, or of a value shown by repr *)
Definition text_of (v : pv) (t : string) : Prop := v = PTensor t \/ v = POther t.
(** [v] is a dict with the entry [k] shown as [t], in it or in a dict nested in it, at any depth *)
Inductive in_dict : pv -> string -> string -> Prop :=
| in_dict_here v d k x t : v = PDict d \/ v = PProp d -> In (k, x) d -> text_of x t -> in_dict v k t
| in_dict_below v d k' x k t : v = PDict d \/ v = PProp d -> In (k', x) d -> in_dict x k t -> in_dict v k t.
(** the text of a random variable: what is asked for, and its distribution with its properties *)
Definition field (p : string * string) : string := (fst p ++ "=" ++ snd p)%string.
Definition variable_text (attrs : list (string * string)) (dist : option (string * list (string * string))) : string :=
  match dist with
  | None => String.concat ", " (map field attrs)
  | Some (cls, props) =>
      (cls ++ "(" ++ String.concat ", " (map field attrs ++ ["dist=" ++ cls ++ "((" ++ String.concat ", " (map field props) ++ ")"]))%string
  end.
Definition shows (args : list string) (dists : bool) (v : drv) (t : string) : Prop :=
  exists attrs, Forall2 (fun a p => fst p = a /\ dget a (d_attrs v) = Some (snd p)) args attrs /\
    if dists then exists d, d_dist v = Some d /\ t = variable_text attrs (Some d) else t = variable_text attrs None.
(** [s] is [name] after blanks, [w] characters wide (wider if the name is) *)
Fixpoint blank (s : string) : Prop := match s with EmptyString => True | String c s' => c = " "%char /\ blank s' end.
Definition right_aligned (w : nat) (name s : string) : Prop :=
  (exists b, blank b /\ s = (b ++ name)%string) /\ String.length s = Nat.max w (String.length name).
(** the mode [m] of ppr asks for what the letter [c] stands for: d the distribution, v the value,
    p the log-probability; "a" asks for everything *)
Definition asks (c : ascii) (m : string) : Prop := m = "a" \/ exists a b, m = (a ++ String c b)%string.

Lemma sapp_assoc a b c : ((a ++ b) ++ c = a ++ b ++ c)%string.
Proof. induction a as [|x a IH]; cbn; [reflexivity|]. rewrite IH. reflexivity. Qed.
Lemma sapp_nil a : (a ++ "" = a)%string.
Proof. induction a as [|x a IH]; cbn; [reflexivity|]. rewrite IH. reflexivity. Qed.
Lemma occurs_refl s : occurs s s.
Proof. exists "", "". cbn. rewrite sapp_nil. reflexivity. Qed.
Lemma occurs_l s t u : occurs s t -> occurs s (t ++ u).
Proof. intros (a & b & ->). exists a, (b ++ u)%string. rewrite !sapp_assoc. reflexivity. Qed.
Lemma occurs_r s t u : occurs s t -> occurs s (u ++ t).
Proof. intros (a & b & ->). exists (u ++ a)%string, b. rewrite !sapp_assoc. reflexivity. Qed.
Lemma occurs_join s t sep l : In t l -> occurs s t -> occurs s (join sep l).
Proof.
  induction l as [|x l IH]; intros Hin Hs; [destruct Hin|]. destruct Hin as [->|Hin].
  - destruct l as [|y l]; [exact Hs|]. cbn [join]. apply occurs_l, Hs.
  - destruct l as [|y l]; [destruct Hin|]. change (join sep (x :: y :: l)) with (x ++ sep ++ join sep (y :: l))%string. apply occurs_r, occurs_r, IH; assumption.
Qed.
Lemma occurs_pad n k s : occurs (k ++ s) (pad n k ++ s).
Proof. unfold pad. rewrite sapp_assoc. exists (spaces (n - String.length k)), "". rewrite sapp_nil. reflexivity. Qed.

(** nested induction over the values *)
Fixpoint pv_induct (P : pv -> Prop) (Ht : forall t, P (PTensor t)) (Hd : forall d, P (PDict d)) (Ho : forall t, P (POther t))
    (Hp : forall d, (forall k x, In (k, x) d -> P x) -> P (PProp d)) (v : pv) : P v :=
  match v with
  | PTensor t => Ht t
  | PDict d => Hd d
  | POther t => Ho t
  | PProp d => Hp d ((fix go (l : list (string * pv)) : forall k x, In (k, x) l -> P x :=
      match l with
      | [] => fun k x H => match H with end
      | (k0, x0) :: l' => fun k x H =>
          match H with
          | or_introl E => eq_ind x0 P (pv_induct P Ht Hd Ho Hp x0) x (f_equal snd E)
          | or_intror H' => go l' k x H'
          end
      end) d)
  end.

Definition rows_of (level max_len : nat) : list (string * pv) -> res (list string) :=
  fix go (l : list (string * pv)) : res (list string) :=
    match l with
    | [] => Ok []
    | (k, x) :: l' =>
        if is_prop x
        then rbind (show_nest (S level) x) (fun s => rmap (cons (pad max_len (k ++ "<PropertyDict>") ++ ": " ++ newline ++ s)%string) (go l'))
        else go l'
    end.
Lemma show_nest_eq level d : show_nest level (PProp d) =
  match d with
  | [] => Err ValueError
  | _ => let w := widest (map fst d) in
      rbind (rows_of level (w + level * w) d) (fun rows =>
      Ok (join (newline ++ "  ") (map (fun kv => (pad (w + level * w) (fst kv) ++ ": " ++ showitem (snd kv))%string) (filter (fun kv => negb (is_prop (snd kv))) d))
          ++ (newline ++ "  ") ++ join (newline ++ "  ") rows)%string)
  end.
Proof. destruct d; reflexivity. Qed.

Lemma show_nest_filled v : is_prop v = true ->
  (filled v /\ forall level, exists s, show_nest level v = Ok s) \/ (~ filled v /\ forall level, show_nest level v = Err ValueError).
Proof.
  induction v as [t|d|t|d IH] using pv_induct; intros Hp; try discriminate. clear Hp.
  assert (G : forall l, (forall k x, In (k, x) l -> In (k, x) d) ->
    ((forall k x, In (k, x) l -> filled x) /\ forall level ml, exists r, rows_of level ml l = Ok r) \/
    (~ (forall k x, In (k, x) l -> filled x) /\ forall level ml, rows_of level ml l = Err ValueError)).
  { induction l as [|[k x] l IHl]; intros Hl; [left; split; [intros k x []|intros; eexists; reflexivity]|].
    destruct (IHl (fun k' x' H => Hl k' x' (or_intror H))) as [(G1 & G2)|(G1 & G2)]; clear IHl.
    - destruct (is_prop x) eqn:Ex.
      + destruct (IH k x (Hl k x (or_introl eq_refl)) Ex) as [(I1 & I2)|(I1 & I2)].
        * left. split; [intros k' x' [[= <- <-]|H]; [exact I1|exact (G1 k' x' H)]|]. intros level ml. cbn [rows_of]. rewrite Ex.
          destruct (I2 (S level)) as [s ->]. fold (rows_of level ml). destruct (G2 level ml) as [r ->]. cbn [rbind rmap]. eauto.
        * right. split; [intros F; apply I1, (F k x (or_introl eq_refl))|]. intros level ml. cbn [rows_of]. rewrite Ex, I2. reflexivity.
      + left. split; [intros k' x' [[= <- <-]|H]; [constructor; exact Ex|exact (G1 k' x' H)]|]. intros level ml. cbn [rows_of]. rewrite Ex. apply G2.
    - right. split; [intros F; apply G1; intros k' x' H; apply (F k' x' (or_intror H))|]. intros level ml. cbn [rows_of]. fold (rows_of level ml).
      destruct (is_prop x) eqn:Ex; [|apply G2]. destruct (IH k x (Hl k x (or_introl eq_refl)) Ex) as [(I1 & I2)|(I1 & I2)].
      + destruct (I2 (S level)) as [s ->]. cbn [rbind]. rewrite G2. reflexivity.
      + rewrite I2. reflexivity. }
  destruct d as [|kv d]; [right; split; [intros F; inversion F; [discriminate|contradiction]|intros; reflexivity]|].
  destruct (G (kv :: d) (fun _ _ H => H)) as [(G1 & G2)|(G1 & G2)].
  - left. split; [constructor; [discriminate|exact G1]|]. intros level. rewrite show_nest_eq. cbn zeta. destruct (G2 level (widest (map fst (kv :: d)) + level * widest (map fst (kv :: d)))) as [r ->]. cbn [rbind]. eauto.
  - right. split; [intros F; inversion F; [discriminate|]; apply G1; assumption|]. intros level. rewrite show_nest_eq. cbn zeta. rewrite G2. reflexivity.
Qed.

(** Displaying an output (repr) succeeds exactly when no PropertyDict in it is empty; otherwise it is a
    ValueError. *)
Theorem C79_repr : forall d,
  (filled (PProp d) -> exists s, pd_repr d = Ok s) /\ (~ filled (PProp d) -> pd_repr d = Err ValueError).
Proof.
  intros d. unfold pd_repr. destruct (show_nest_filled (PProp d) eq_refl) as [(H1 & H2)|(H1 & H2)]; (split; [intros F|intros F]); try contradiction.
  - destruct (H2 0) as [s ->]. cbn. eauto.
  - rewrite H2. reflexivity.
Qed.
Print Assumptions C79_repr.
(** an output whose value is an empty PropertyDict cannot be displayed *)
Theorem C79_repr_refuted : pd_repr [] = Err ValueError /\
  pd_repr [("trace", POther "Trace{}"); ("log_weight", PTensor "float32[]"); ("output", PProp [])] = Err ValueError.
Proof. split; reflexivity. Qed.
Print Assumptions C79_repr_refuted.

Lemma rows_of_In level ml : forall l r, rows_of level ml l = Ok r -> forall k x, In (k, x) l -> is_prop x = true ->
  exists s, show_nest (S level) x = Ok s /\ In (pad ml (k ++ "<PropertyDict>") ++ ": " ++ newline ++ s)%string r.
Proof.
  induction l as [|[k0 x0] l IH]; intros r Hr k x Hin Hx; [destruct Hin|]. cbn [rows_of] in Hr. fold (rows_of level ml) in Hr. destruct (is_prop x0) eqn:E0.
  - destruct (show_nest (S level) x0) as [s0|] eqn:Es; cbn [rbind] in Hr; [|discriminate]. destruct (rows_of level ml l) as [r0|] eqn:Er; cbn [rmap] in Hr; [|discriminate]. injection Hr as <-.
    destruct Hin as [[= <- <-]|Hin]; [exists s0; split; [exact Es|left; reflexivity]|]. destruct (IH r0 eq_refl k x Hin Hx) as (s & Hs & Hi). exists s. split; [exact Hs|right; exact Hi].
  - destruct Hin as [[= <- <-]|Hin]; [congruence|]. exact (IH r Hr k x Hin Hx).
Qed.
(** When it succeeds, every entry is in the text, at every depth of nesting, with its name: tensors,
    dictionaries and other values behind it, PropertyDicts below it. *)
Theorem C79_entries : forall d s, pd_repr d = Ok s -> forall k v, holds_entry (PProp d) k v ->
  if is_prop v then occurs (k ++ "<PropertyDict>: " ++ newline) s else occurs (k ++ ": " ++ showitem v) s.
Proof.
  intros d s H. unfold pd_repr in H. destruct (show_nest 0 (PProp d)) as [s0|] eqn:E; cbn [rmap] in H; [|discriminate]. injection H as <-.
  assert (G : forall p k v, holds_entry p k v -> forall level s, show_nest level p = Ok s -> if is_prop v then occurs (k ++ "<PropertyDict>: " ++ newline) s else occurs (k ++ ": " ++ showitem v) s).
  { clear. induction 1 as [d k v Hin|d k' x k v Hin Hx IH]; intros level s Hs; rewrite show_nest_eq in Hs; (destruct d as [|kv d]; [destruct Hin|]); cbn zeta in Hs;
    (destruct (rows_of level _ (kv :: d)) as [rows|] eqn:Er; cbn [rbind] in Hs; [|discriminate]); injection Hs as <-.
    - destruct (is_prop v) eqn:Ev.
      + destruct (rows_of_In _ _ _ _ Er k v Hin Ev) as (s & _ & Hi). apply occurs_r. apply (occurs_r _ _ (newline ++ "  ")). eapply occurs_join; [exact Hi|].
        replace (k ++ "<PropertyDict>: " ++ newline)%string with ((k ++ "<PropertyDict>") ++ ": " ++ newline)%string by (rewrite sapp_assoc; reflexivity).
        rewrite <- (sapp_assoc ": " newline s). rewrite <- (sapp_assoc (pad _ _) (": " ++ newline) s). apply occurs_l. apply occurs_pad.
      + apply occurs_l. eapply occurs_join; [|apply occurs_pad]. apply in_map_iff. exists (k, v). split; [reflexivity|]. apply (proj2 (filter_In (fun kv => negb (is_prop (snd kv))) (k, v) (kv :: d))). split; [exact Hin|]. cbn [snd]. rewrite Ev. reflexivity.
    - assert (Ex : is_prop x = true) by (inversion Hx; reflexivity). destruct (rows_of_In _ _ _ _ Er k' x Hin Ex) as (s & Hs & Hi).
      specialize (IH _ _ Hs). destruct (is_prop v); (apply occurs_r; apply (occurs_r _ _ (newline ++ "  ")); eapply occurs_join; [exact Hi|]; apply occurs_r; apply (occurs_r _ _ ": "); apply (occurs_r _ _ newline); exact IH). }
  intros k v Hk. specialize (G _ _ _ Hk _ _ E). destruct (is_prop v); apply (occurs_r _ _ "<PropertyDict>:"); apply (occurs_r _ _ newline); exact G.
Qed.
Print Assumptions C79_entries.
Example C79_entries_case : exists s, pd_repr [("lw", PTensor "float32[3]"); ("px", PProp [("lw", PTensor "float32[2]")])] = Ok s /\
  holds_entry (PProp [("lw", PTensor "float32[3]"); ("px", PProp [("lw", PTensor "float32[2]")])]) "lw" (PTensor "float32[2]").
Proof. eexists. split; [reflexivity|]. eapply holds_below; [right; left; reflexivity|]. apply holds_here. left. reflexivity. Qed.

Lemma showitem_dict d : showitem (PDict d) = ("dict(" ++ join ", " (map (fun kv => (fst kv ++ "=" ++ showitem (snd kv))%string) d) ++ ")")%string.
Proof. cbn [showitem]. do 3 f_equal. induction d as [|[k x] d IH]; [reflexivity|]. cbn [map fst snd]. rewrite <- IH. reflexivity. Qed.
(** Every tensor and every other value is shown with its name: behind a colon if it is an entry of a
    PropertyDict, behind an equals sign if it is in a dict, at any depth of nesting of either. *)
Theorem C79_leaves : forall d s, pd_repr d = Ok s ->
  (forall k v t, holds_entry (PProp d) k v -> text_of v t -> occurs (k ++ ": " ++ t) s) /\
  (forall k v k' t, holds_entry (PProp d) k v -> is_prop v = false -> in_dict v k' t -> occurs (k' ++ "=" ++ t) s).
Proof.
  intros d s H. pose proof (C79_entries d s H) as E. split.
  - intros k v t Hk [->| ->]; exact (E k _ Hk).
  - intros k v k' t Hk Hp Hd. specialize (E k v Hk). rewrite Hp in E. clear - E Hd.
    assert (G : occurs (k' ++ "=" ++ t) (showitem v)).
    { clear E. clear k. induction Hd as [v d k x t Hv Hin Ht|v d k1 x k t Hv Hin Hx IH];
        (assert (Ev : showitem v = showitem (PDict d)) by (destruct Hv as [->| ->]; reflexivity)); rewrite Ev, showitem_dict; apply (occurs_r _ _ "dict("), occurs_l; eapply occurs_join.
      - apply in_map, Hin.
      - cbn [fst snd]. destruct Ht as [->| ->]; apply occurs_refl.
      - apply in_map, Hin.
      - cbn [fst snd]. apply occurs_r, (occurs_r _ _ "="), IH. }
    destruct E as (a & b & E), G as (a' & b' & G). rewrite G in E. exists (a ++ k ++ ": " ++ a')%string, (b' ++ b)%string. rewrite E, !sapp_assoc. reflexivity.
Qed.
Print Assumptions C79_leaves.
Example C79_leaves_case : exists s, pd_repr [("lw", PTensor "float32[3]"); ("o", PDict [("a", POther "1"); ("b", PDict [("c", PTensor "float32[2]")])])] = Ok s /\
  in_dict (PDict [("a", POther "1"); ("b", PDict [("c", PTensor "float32[2]")])]) "c" "float32[2]".
Proof.
  eexists. split; [reflexivity|]. eapply in_dict_below; [left; reflexivity|right; left; reflexivity|]. eapply in_dict_here; [left; reflexivity|left; reflexivity|left; reflexivity].
Qed.

(** *** Traces *)
(** [show] of a trace fails on every trace that is not empty *)
Theorem C79_show_refuted : forall tr, (exists s, show_trace tr = Ok s) <-> tr = [].
Proof. intros [|kv tr]; (split; [|intros H]); [reflexivity|eexists; reflexivity|intros [s H]; discriminate|discriminate]. Qed.
Print Assumptions C79_show_refuted.

Lemma insert_perm kv l : Permutation (insert_item kv l) (kv :: l).
Proof. induction l as [|x l IH]; cbn; [reflexivity|]. destruct (String.leb _ _); [reflexivity|]. rewrite IH. apply perm_swap. Qed.
Lemma sort_perm l : Permutation (sort_items l) l.
Proof. induction l as [|x l IH]; cbn; [reflexivity|]. fold (sort_items l). rewrite insert_perm, IH. reflexivity. Qed.
Definition name_le (a b : string * drv) : Prop := String.leb (fst a) (fst b) = true.
Lemma leb_total a b : String.leb a b = false -> String.leb b a = true.
Proof. destruct (String.leb_total a b); congruence. Qed.
Lemma insert_sorted kv l : Sorted name_le l -> Sorted name_le (insert_item kv l).
Proof.
  induction l as [|x l IH]; intros H; cbn; [repeat constructor|]. destruct (String.leb (fst kv) (fst x)) eqn:E; [constructor; [exact H|constructor; exact E]|].
  inversion H as [|? ? Hs Hh]; subst. constructor; [apply IH, Hs|]. destruct l as [|y l]; cbn; [constructor; apply leb_total, E|].
  destruct (String.leb (fst kv) (fst y)); constructor; [apply leb_total, E|inversion Hh; assumption].
Qed.
Lemma sort_sorted l : Sorted name_le (sort_items l).
Proof. induction l as [|x l IH]; cbn; [constructor|]. apply insert_sorted, IH. Qed.
Lemma Forall2_map_impl {A B} (P Q : A -> B -> Prop) l r : (forall a b, P a b -> Q a b) -> Forall2 P l r -> Forall2 Q l r.
Proof. intros H. induction 1; constructor; auto. Qed.
Lemma mapR_ok {A B} (f : A -> res B) l r : mapR f l = Ok r <-> Forall2 (fun a b => f a = Ok b) l r.
Proof.
  revert r. induction l as [|a l IH]; intros r; cbn [mapR].
  - split; [intros [= <-]; constructor|intros H; inversion H; reflexivity].
  - destruct (f a) as [b|e] eqn:E; cbn [rbind]; [|split; [discriminate|intros H; inversion H; congruence]].
    destruct (mapR f l) as [bs|e] eqn:Eb; cbn [rmap].
    + split; [intros [= <-]; constructor; [exact E|apply IH; reflexivity]|]. intros H. inversion H as [|? b' ? bs' H1 H2]; subst. apply IH in H2. congruence.
    + split; [discriminate|]. intros H. inversion H as [|? b' ? bs' H1 H2]; subst. apply IH in H2. discriminate.
Qed.
Lemma mapR_err {A B} (f : A -> res B) l e : mapR f l = Err e -> exists a, In a l /\ f a = Err e.
Proof.
  induction l as [|a l IH]; cbn [mapR]; [discriminate|]. destruct (f a) as [b|e'] eqn:E; cbn [rbind]; [|intros [= <-]; exists a; split; [left; reflexivity|exact E]].
  destruct (mapR f l) as [bs|e'']; cbn [rmap]; [discriminate|]. intros [= <-]. destruct (IH eq_refl) as (x & Hx & Hf). exists x. split; [right; exact Hx|exact Hf].
Qed.
(** a random variable can be shown when it has all that is asked for *)
Definition showable (args : list string) (dists : bool) (v : drv) : Prop :=
  (forall a, In a args -> dget a (d_attrs v) <> None) /\ (dists = true -> d_dist v <> None).
Lemma attrs_of_spec args v : (exists l, attrs_of args v = Ok l) /\ (forall a, In a args -> dget a (d_attrs v) <> None) \/
  attrs_of args v = Err AttributeError /\ ~ (forall a, In a args -> dget a (d_attrs v) <> None).
Proof.
  induction args as [|a args IH]; cbn [attrs_of]; [left; split; [eauto|intros a []]|]. destruct (dget a (d_attrs v)) as [t|] eqn:E.
  - destruct IH as [([l ->] & H)|(-> & H)]; [left; cbn; split; [eauto|]; intros b [<-|Hb]; [congruence|exact (H b Hb)]|right; split; [reflexivity|]; intros F; apply H; intros b Hb; apply (F b (or_intror Hb))].
  - right. split; [reflexivity|]. intros F. apply (F a (or_introl eq_refl) E).
Qed.
Lemma showRV_spec args dists v : (exists s, showRV args dists v = Ok s) /\ showable args dists v \/ showRV args dists v = Err AttributeError /\ ~ showable args dists v.
Proof.
  unfold showRV, showable. destruct (attrs_of_spec args v) as [([l ->] & H)|(-> & H)]; cbn [rbind]; [|right; split; [reflexivity|tauto]].
  destruct dists; [|left; split; [eauto|split; [exact H|discriminate]]]. destruct (d_dist v) as [[c p]|].
  - left. split; [eauto|]. split; [exact H|discriminate].
  - right. split; [reflexivity|]. intros [_ F]. apply F; reflexivity.
Qed.
Lemma join_concat sep l : join sep l = String.concat sep l.
Proof. induction l as [|x l IH]; [reflexivity|]. destruct l as [|y l]; [reflexivity|]. change (join sep (x :: y :: l)) with (x ++ sep ++ join sep (y :: l))%string. rewrite IH. reflexivity. Qed.
Lemma slength_app a b : String.length (a ++ b) = String.length a + String.length b.
Proof. induction a as [|x a IH]; cbn; [reflexivity|]. rewrite IH. reflexivity. Qed.
Lemma pad_aligned w k : right_aligned w k (pad w k).
Proof.
  assert (B : forall n, blank (spaces n) /\ String.length (spaces n) = n) by (induction n as [|n [H1 H2]]; cbn; auto).
  split; [eexists; split; [apply B|reflexivity]|]. unfold pad. rewrite slength_app, (proj2 (B _)). lia.
Qed.
Lemma widest_max l : (forall x, In x l -> String.length x <= widest l) /\ (l <> [] -> exists x, In x l /\ String.length x = widest l).
Proof.
  induction l as [|x l [H1 H2]]; [split; [intros x []|congruence]|]. change (widest (x :: l)) with (Nat.max (String.length x) (widest l)). split.
  - intros y [->|Hy]; [lia|]. specialize (H1 y Hy). lia.
  - intros _. destruct (Nat.le_ge_cases (widest l) (String.length x)) as [Hle|Hle]; [exists x; split; [left; reflexivity|lia]|].
    destruct l as [|z l]; [exists x; split; [left; reflexivity|cbn; lia]|]. destruct H2 as (y & Hy & E); [discriminate|]. exists y. split; [right; exact Hy|lia].
Qed.
Lemma attrs_exact args v : forall l, attrs_of args v = Ok l <-> exists attrs, Forall2 (fun a p => fst p = a /\ dget a (d_attrs v) = Some (snd p)) args attrs /\ l = map field attrs.
Proof.
  induction args as [|a args IH]; intros l; cbn [attrs_of].
  - split; [intros [= <-]; exists []; split; [constructor|reflexivity]|]. intros (attrs & H & ->). inversion H. reflexivity.
  - destruct (dget a (d_attrs v)) as [t|] eqn:E.
    + destruct (attrs_of args v) as [l'|e] eqn:El; cbn [rmap].
      * split; [intros [= <-]; destruct (proj1 (IH l') eq_refl) as (attrs & H & ->); exists ((a, t) :: attrs); split; [constructor; [split; [reflexivity|exact E]|exact H]|reflexivity]|].
        intros (attrs & H & ->). inversion H as [|? [a' t'] ? attrs' [H1 H2] H3]; subst. cbn [fst snd] in *. assert (E2 := proj2 (IH _) (ex_intro _ attrs' (conj H3 eq_refl))). injection E2 as ->.
        assert (t' = t) by congruence. subst t'. reflexivity.
      * split; [discriminate|]. intros (attrs & H & ->). inversion H as [|? [a' t'] ? attrs' [H1 H2] H3]; subst. assert (E2 := proj2 (IH _) (ex_intro _ attrs' (conj H3 eq_refl))). discriminate.
    + split; [discriminate|]. intros (attrs & H & _). inversion H as [|? [a' t'] ? attrs' [H1 H2] H3]; subst. cbn [fst snd] in *. congruence.
Qed.
(** showRV: exactly what was asked for, or a failure *)
Theorem C79_variable : forall args dists v s, showRV args dists v = Ok s <-> shows args dists v s.
Proof.
  intros args dists v s. unfold showRV, shows. destruct (attrs_of args v) as [l|e] eqn:El; cbn [rbind].
  - pose proof (proj1 (attrs_exact args v l) El) as (attrs & H & ->).
    assert (U : forall attrs', Forall2 (fun a p => fst p = a /\ dget a (d_attrs v) = Some (snd p)) args attrs' -> map field attrs' = map field attrs).
    { intros attrs' H'. assert (E2 := proj2 (attrs_exact args v _) (ex_intro _ attrs' (conj H' eq_refl))). congruence. }
    destruct dists.
    + destruct (d_dist v) as [[c props]|] eqn:Ed.
      * assert (Et : forall a', map field a' = map field attrs ->
          ((c ++ "(") ++ join ", " (map field attrs ++ [("dist=" ++ (c ++ "(") ++ "(" ++ join ", " (map (fun p => (fst p ++ "=" ++ snd p)%string) props) ++ ")")%string]))%string = variable_text a' (Some (c, props))).
        { intros a' Ea. unfold variable_text. rewrite Ea, !join_concat, !sapp_assoc. reflexivity. }
        split; [intros [= <-]; exists attrs; split; [exact H|]; eexists; split; [reflexivity|]; apply Et; reflexivity|].
        intros (attrs' & H' & d & [= <-] & ->). f_equal. apply Et, U, H'.
      * split; [discriminate|]. intros (attrs' & _ & d & Hd & _). discriminate.
    + split; [intros [= <-]; exists attrs; split; [exact H|apply join_concat]|]. intros (attrs' & H' & ->). f_equal. unfold variable_text. rewrite (U _ H'). apply join_concat.
  - split; [discriminate|]. intros (attrs & H & _). assert (E2 := proj2 (attrs_exact args v _) (ex_intro _ attrs (conj H eq_refl))). congruence.
Qed.
Print Assumptions C79_variable.
Example C79_variable_case : shows ["value"] true (mkDrv (Some ("Normal", [("loc", "float32[2]")])) [("value", "float32[2]")]) "Normal(value=float32[2], dist=Normal((loc=float32[2])".
Proof. apply C79_variable. reflexivity. Qed.
(** showall of a trace: a line for each random variable and no other, in the order of their names if
    sorting is asked for (the default).  It fails exactly when something is asked for that a variable
    does not have, or when the delimiter is empty. *)
Theorem C79_showall : forall delim pretty mlen sort args dists tr, tr <> [] -> (pretty = true \/ delim <> "") ->
  ((forall k v, In (k, v) tr -> showable args dists v) ->
   exists s items rows, showall delim pretty mlen sort args dists tr = Ok s /\
     Permutation items tr /\ (sort = true -> Sorted name_le items) /\ (sort = false -> items = tr) /\
     (exists w, (if pretty then (forall kv, In kv tr -> String.length (fst kv) <= w) /\ (exists kv, In kv tr /\ String.length (fst kv) = w) else w = mlen) /\
       Forall2 (fun kv row => exists p t, right_aligned w (fst kv) p /\ shows args dists (snd kv) t /\ row = (p ++ "-➢" ++ t)%string) items rows) /\
     exists first, s = ("{" ++ first ++ String.concat (if pretty then String (ascii_of_nat 10) "," else delim) rows ++ "}")%string) /\
  (~ (forall k v, In (k, v) tr -> showable args dists v) -> showall delim pretty mlen sort args dists tr = Err AttributeError).
Proof.
  intros delim pretty mlen sort args dists tr Hne Hd. unfold showall. destruct tr as [|kv0 tr0]; [contradiction|]. set (tr := kv0 :: tr0) in *.
  set (ml := if pretty then widest (dkeys tr) else mlen). set (dl := if pretty then (newline ++ ",")%string else delim). set (items := if sort then sort_items tr else tr).
  assert (Hp : Permutation items tr) by (unfold items; destruct sort; [apply sort_perm|reflexivity]).
  assert (Hdl : exists c r, dl = String c r).
  { unfold dl. destruct pretty; [eexists _, _; reflexivity|]. destruct Hd as [F|F]; [discriminate|]. destruct delim as [|c r]; [contradiction|eauto]. }
  destruct Hdl as (c & r & Edl). rewrite Edl. rewrite <- Edl. cbv zeta. match goal with |- context [if ?b then dl else _] => set (pref := if b then dl else "") end. clearbody pref. clear Edl. fold dl. fold ml.
  set (f := fun kv : string * drv => rmap (fun s => (pad ml (fst kv) ++ arrow ++ s)%string) (showRV args dists (snd kv))). split.
  - intros H. destruct (mapR f items) as [rows|e] eqn:Em.
    + eexists _, items, rows. cbn [rbind]. split; [reflexivity|]. split; [exact Hp|]. split; [intros ->; apply sort_sorted|]. split; [intros ->; reflexivity|]. split.
      * exists ml. split; [|apply mapR_ok in Em; eapply Forall2_map_impl; [|exact Em]; intros kv row Hr; unfold f in Hr; destruct (showRV args dists (snd kv)) as [t|] eqn:Et; cbn [rmap] in Hr; [|discriminate];
          injection Hr as <-; exists (pad ml (fst kv)), t; split; [apply pad_aligned|]; split; [apply C79_variable, Et|reflexivity]].
        subst ml. destruct pretty; [|reflexivity]. destruct (widest_max (dkeys tr)) as [W1 W2]. split; [intros kv Hkv; apply W1, in_map, Hkv|].
        destruct W2 as (x & Hx & Ex); [discriminate|]. apply in_map_iff in Hx. destruct Hx as (kv & <- & Hkv). eauto.
      * exists pref. rewrite join_concat. subst dl. destruct pretty; reflexivity.
    + apply mapR_err in Em. destruct Em as ([k v] & Hin & Hf). unfold f in Hf. cbn [snd fst] in Hf.
      destruct (showRV_spec args dists v) as [([s Es] & _)|(_ & F)]; [rewrite Es in Hf; discriminate|]. contradiction F. apply (H k v). eapply Permutation_in; [exact Hp|exact Hin].
  - intros H. destruct (mapR f items) as [rows|e] eqn:Em.
    + exfalso. apply H. intros k v Hin. apply mapR_ok in Em. apply Permutation_sym in Hp. apply (Permutation_in _ Hp) in Hin.
      assert (G : exists row, f (k, v) = Ok row) by (clear -Em Hin; induction Em; [destruct Hin|]; destruct Hin as [->|Hin]; [eauto|apply IHEm, Hin]).
      destruct G as [row G]. unfold f in G. cbn [snd] in G. destruct (showRV_spec args dists v) as [(_ & F)|(E & _)]; [exact F|]. rewrite E in G. discriminate.
    + cbn [rbind]. f_equal. apply mapR_err in Em. destruct Em as ([k v] & Hin & Hf). unfold f in Hf. cbn [snd] in Hf.
      destruct (showRV_spec args dists v) as [([s Es] & _)|(E & _)]; [rewrite Es in Hf; discriminate|]. rewrite E in Hf. injection Hf as <-. reflexivity.
Qed.
Print Assumptions C79_showall.
Theorem C79_delimiter_refuted : forall mlen sort args dists tr, tr <> [] -> showall "" false mlen sort args dists tr = Err IndexError.
Proof. intros mlen sort args dists [|kv tr] H; [contradiction|reflexivity]. Qed.
Print Assumptions C79_delimiter_refuted.

Lemma in_mode_asks c m : in_mode c m = true <-> asks c m.
Proof.
  unfold in_mode, asks. rewrite orb_true_iff, String.eqb_eq. assert (G : has_letter c m = true <-> exists a b, m = (a ++ String c b)%string); [|tauto].
  induction m as [|x m IH]; cbn [has_letter]; [split; [discriminate|intros (a & b & H); destruct a; discriminate]|]. rewrite orb_true_iff, IH. split.
  - intros [E|(a & b & ->)]; [apply Ascii.eqb_eq in E; subst x; exists "", m; reflexivity|exists (String x a), b; reflexivity].
  - intros ([|y a] & b & H); cbn in H; injection H as -> H; [left; apply Ascii.eqb_refl|right; eauto].
Qed.
(** ppr of a trace and of a random variable: what the mode asks for and nothing else; of an output: the
    values and distributions of its trace, whatever the mode; of a list or a dict: its elements, in the
    default mode. *)
Theorem C79_ppr : forall repr_strings m vals probs dists,
  (asks "v" m /\ vals = ["value"] \/ ~ asks "v" m /\ vals = []) -> (asks "p" m /\ probs = ["log_prob"] \/ ~ asks "p" m /\ probs = []) -> (asks "d" m <-> dists = true) ->
  (forall v s, ppr_show repr_strings m (ARv v) = Ok s <-> shows (vals ++ probs) dists v s) /\
  (forall tr, ppr_show repr_strings m (ATrace tr) = showall "; " true 0 true (vals ++ probs) dists tr) /\
  (forall tr, ppr_show repr_strings m (AOut tr) = showall "; " true 0 true ["value"] true tr) /\
  (forall l ts, Forall2 (fun x t => ppr_show repr_strings "dv" x = Ok t) l ts -> ppr_show repr_strings m (AList l) = Ok ("[" ++ String.concat ", " ts ++ "]")%string) /\
  (forall d ts, Forall2 (fun x t => ppr_show repr_strings "dv" x = Ok t) (map snd d) ts -> ppr_show repr_strings m (ADict d) = Ok (repr_strings (combine (map fst d) ts))).
Proof.
  intros rs m vals probs dists Hv Hp Hd.
  assert (Ev : (if in_mode "v" m then ["value"] else []) = vals).
  { destruct (in_mode "v" m) eqn:E; destruct Hv as [[A ->]|[A ->]]; try reflexivity; exfalso; [apply A, in_mode_asks, E|apply in_mode_asks in A; congruence]. }
  assert (Ep : (if in_mode "p" m then ["log_prob"] else []) = probs).
  { destruct (in_mode "p" m) eqn:E; destruct Hp as [[A ->]|[A ->]]; try reflexivity; exfalso; [apply A, in_mode_asks, E|apply in_mode_asks in A; congruence]. }
  assert (Ed : in_mode "d" m = dists).
  { rewrite <- in_mode_asks in Hd. destruct (in_mode "d" m), dists; try reflexivity; destruct Hd as [H1 H2]; [symmetry; apply H1; reflexivity|apply H2; reflexivity]. }
  split; [|split; [|split; [|split]]].
  - intros v s. cbn [ppr_show ppr_leaf]. rewrite Ev, Ep, Ed. apply C79_variable.
  - intros tr. cbn [ppr_show ppr_leaf]. rewrite Ev, Ep, Ed. reflexivity.
  - reflexivity.
  - intros l ts H. rewrite <- join_concat. cbn [ppr_show]. match goal with |- rmap _ ?X = _ => assert (E : X = Ok ts); [|rewrite E; reflexivity] end.
    induction H as [|x t l ts H1 H IH]; [reflexivity|]. cbn [rbind]. rewrite H1. cbn [rbind]. rewrite IH. reflexivity.
  - intros d ts H. cbn [ppr_show]. match goal with |- rmap _ ?X = _ => assert (E : X = Ok (combine (map fst d) ts)); [|rewrite E; reflexivity] end.
    revert ts H. induction d as [|[k x] d IH]; intros ts H; inversion H as [|? t ? ts' H1 H2]; subst; [reflexivity|]. cbn [snd fst map combine] in *. rewrite H1. cbn [rbind]. rewrite (IH _ H2). reflexivity.
Qed.
Print Assumptions C79_ppr.
Example C79_ppr_modes : asks "d" "dv" /\ asks "v" "dv" /\ ~ asks "p" "dv" /\ asks "p" "a".
Proof. rewrite <- !in_mode_asks. repeat split; try reflexivity. discriminate. Qed.

(** ppr of an output or a trace, in the default mode or any other that shows distributions, fails as soon
    as one variable has no distribution: the traces of all densities of the annealing experiment *)
Theorem C79_ppr_refuted : forall repr_strings m tr k v, In (k, v) tr -> d_dist v = None -> in_mode "d" m = true ->
  ppr_show repr_strings m (ATrace tr) = Err AttributeError /\ ppr_show repr_strings m (AOut tr) = Err AttributeError /\
  ppr_show repr_strings m (AList [AOut tr]) = Err AttributeError.
Proof.
  intros rs m tr k v Hin Hv Hm. assert (Hne : tr <> []) by (intros ->; destruct Hin).
  assert (G : forall args, showall "; " true 0 true args true tr = Err AttributeError).
  { intros args. apply C79_showall; [exact Hne|left; reflexivity|]. intros F. destruct (F k v Hin) as [_ F']. apply F'; [reflexivity|exact Hv]. }
  cbn [ppr_show ppr_leaf]. rewrite Hm. rewrite !G. auto.
Qed.
Print Assumptions C79_ppr_refuted.
Example C79_ppr_case : in_mode "d" "dv" = true /\ ppr_show (fun _ => "") "v" (ATrace [("z", mkDrv None [("value", "float32[2]")])]) <> Err AttributeError.
Proof. split; [reflexivity|discriminate]. Qed.

(** the text of a variable with its distribution is not well-formed: it opens two parentheses more than
    it closes, provided that the texts of its tensors are balanced *)
Fixpoint count (c : ascii) (s : string) : nat :=
  match s with EmptyString => 0 | String c' s' => (if Ascii.eqb c c' then 1 else 0) + count c s' end.
Definition balanced (s : string) : Prop := count "(" s = count ")" s.
Lemma count_app c a b : count c (a ++ b)%string = count c a + count c b.
Proof. induction a as [|x a IH]; cbn; [reflexivity|]. rewrite IH. lia. Qed.
Lemma balanced_join sep l : balanced sep -> Forall balanced l -> balanced (join sep l).
Proof.
  unfold balanced. intros Hs H. induction H as [|x l Hx Hl IH]; [reflexivity|]. destruct l as [|y l]; [exact Hx|].
  change (join sep (x :: y :: l)) with (x ++ sep ++ join sep (y :: l))%string. rewrite !count_app. lia.
Qed.
Theorem C79_parentheses_refuted : forall args v s, showRV args true v = Ok s ->
  (forall a t, In a args -> dget a (d_attrs v) = Some t -> balanced a /\ balanced t) ->
  (forall c props, d_dist v = Some (c, props) -> balanced c /\ forall p, In p props -> balanced (fst p) /\ balanced (snd p)) ->
  count "(" s = S (S (count ")" s)).
Proof.
  intros args v s H Ha Hd. unfold showRV in H. destruct (attrs_of args v) as [l|] eqn:El; cbn [rbind] in H; [|discriminate].
  destruct (d_dist v) as [[c props]|] eqn:Ed; [|discriminate]. injection H as <-. destruct (Hd c props eq_refl) as [Hc Hp].
  assert (Hl : Forall balanced l).
  { clear Ed Hd. revert l El. induction args as [|a args IH]; intros l El; cbn [attrs_of] in El; [injection El as <-; constructor|].
    destruct (dget a (d_attrs v)) as [t|] eqn:Et; [|discriminate]. destruct (attrs_of args v) as [l'|]; cbn [rmap] in El; [|discriminate]. injection El as <-.
    constructor; [|apply IH; [intros a' t' Hin; apply Ha; right; exact Hin|reflexivity]]. destruct (Ha a t (or_introl eq_refl) Et) as [B1 B2]. unfold balanced in *. rewrite !count_app. cbn. lia. }
  assert (Hs : balanced (join ", " (map (fun p : string * string => (fst p ++ "=" ++ snd p)%string) props))).
  { apply balanced_join; [reflexivity|]. apply Forall_forall. intros x Hx. apply in_map_iff in Hx. destruct Hx as (p & <- & Hin). destruct (Hp p Hin) as [B1 B2].
    unfold balanced in *. rewrite !count_app. cbn. lia. }
  assert (J : forall l x, Forall balanced l -> count "(" x = S (count ")" x) -> count "(" (join ", " (l ++ [x])) = S (count ")" (join ", " (l ++ [x])))).
  { clear. intros l x Hl Hx. induction Hl as [|y l Hy Hl IH]; [exact Hx|]. cbn [app]. destruct (l ++ [x]) as [|z l'] eqn:E; [destruct l; discriminate|].
    change (join ", " (y :: z :: l')) with (y ++ ", " ++ join ", " (z :: l'))%string. rewrite !count_app. unfold balanced in Hy. set (j := join ", " (z :: l')) in *. clearbody j. cbn. lia. }
  rewrite !count_app. unfold balanced in Hc. rewrite (J l).
  - cbn. lia.
  - exact Hl.
  - unfold balanced in Hs. set (j := join ", " _) in *. clearbody j. cbn. repeat (rewrite ?count_app; cbn). lia.
Qed.
Print Assumptions C79_parentheses_refuted.
Example C79_parentheses_case : showRV ["value"] true (mkDrv (Some ("Normal", [("loc", "float32[2]")])) [("value", "float32[2]")])
  = Ok "Normal(value=float32[2], dist=Normal((loc=float32[2])".
Proof. reflexivity. Qed.

(** showvals, showprobs and showdists: every variable with its value, its log-probability, its
    distribution.  They fail when one has none, with an AttributeError. *)
Theorem C79_columns : forall delim pretty mlen sort tr, tr <> [] ->
  ((forall k v, In (k, v) tr -> dget "value" (d_attrs v) <> None) ->
    exists s, showvals delim pretty mlen sort tr = Ok s /\
      forall k v t, In (k, v) tr -> dget "value" (d_attrs v) = Some t -> occurs (k ++ "-➢value=" ++ t) s) /\
  ((forall k v, In (k, v) tr -> dget "log_prob" (d_attrs v) <> None) ->
    exists s, showprobs delim pretty mlen sort tr = Ok s /\
      forall k v t, In (k, v) tr -> dget "log_prob" (d_attrs v) = Some t -> occurs (k ++ "-➢log_prob=" ++ t) s) /\
  ((forall k v, In (k, v) tr -> d_dist v <> None) ->
    exists s, showdists delim pretty mlen sort tr = Ok s /\
      forall k v c props, In (k, v) tr -> d_dist v = Some (c, props) ->
        occurs (k ++ "-➢" ++ c ++ "(dist=" ++ c ++ "((" ++ String.concat ", " (map field props) ++ ")") s).
Proof.
  intros delim pretty mlen sort tr Hne.
  assert (G : forall args dists, (forall k v, In (k, v) tr -> showable args dists v) -> exists s, showall "; " true 0 true args dists tr = Ok s /\
    forall k v, In (k, v) tr -> exists t, shows args dists v t /\ occurs (k ++ "-➢" ++ t) s).
  { intros args dists H. destruct (proj1 (C79_showall "; " true 0 true args dists tr Hne (or_introl eq_refl)) H) as (s & items & rows & Hs & Hp & _ & _ & (w & _ & Hr) & (first & E)).
    exists s. split; [exact Hs|]. intros k v Hin. apply Permutation_sym in Hp. apply (Permutation_in _ Hp) in Hin.
    assert (R : exists row, In row rows /\ exists p t, right_aligned w k p /\ shows args dists v t /\ row = (p ++ "-➢" ++ t)%string).
    { clear - Hr Hin. induction Hr as [|kv row items rows Hr1 Hr IH]; [destruct Hin|]. destruct Hin as [->|Hin]; [exists row; split; [left; reflexivity|exact Hr1]|]. destruct (IH Hin) as (r & Hr' & F). exists r. split; [right; exact Hr'|exact F]. }
    destruct R as (row & Hrow & p & t & ((b & _ & ->) & _) & Ht & ->). exists t. split; [exact Ht|]. subst s. apply (occurs_r _ _ "{"), occurs_r, occurs_l. rewrite <- join_concat. eapply occurs_join; [exact Hrow|].
    rewrite sapp_assoc. apply occurs_r, occurs_refl. }
  split; [|split]; intros H.
  - destruct (G ["value"] false) as (s & Hs & Ht); [intros k v Hin; split; [intros a [<-|[]]; exact (H k v Hin)|discriminate]|]. exists s. split; [exact Hs|]. intros k v t Hin Hv.
    destruct (Ht k v Hin) as (u & (attrs & F & ->) & O). inversion F as [|? [a x] ? ? [E1 E2] F']; subst. inversion F'; subst. cbn [fst snd] in *. rewrite Hv in E2. injection E2 as <-. subst a. exact O.
  - destruct (G ["log_prob"] false) as (s & Hs & Ht); [intros k v Hin; split; [intros a [<-|[]]; exact (H k v Hin)|discriminate]|]. exists s. split; [exact Hs|]. intros k v t Hin Hv.
    destruct (Ht k v Hin) as (u & (attrs & F & ->) & O). inversion F as [|? [a x] ? ? [E1 E2] F']; subst. inversion F'; subst. cbn [fst snd] in *. rewrite Hv in E2. injection E2 as <-. subst a. exact O.
  - destruct (G [] true) as (s & Hs & Ht); [intros k v Hin; split; [intros a []|intros _; exact (H k v Hin)]|]. exists s. split; [exact Hs|]. intros k v c props Hin Hv.
    destruct (Ht k v Hin) as (u & (attrs & F & d & Ed & ->) & O). inversion F; subst. rewrite Hv in Ed. injection Ed as <-. exact O.
Qed.
Print Assumptions C79_columns.

(** showvals, showprobs and showdists ignore their formatting arguments *)
Theorem C79_format_refuted : forall delim pretty mlen sort tr,
  showvals delim pretty mlen sort tr = showvals "; " true 0 true tr /\ showprobs delim pretty mlen sort tr = showprobs "; " true 0 true tr /\
  showdists delim pretty mlen sort tr = showdists "; " true 0 true tr.
Proof. intros. split; [reflexivity|]. split; reflexivity. Qed.
Print Assumptions C79_format_refuted.

(** *** Tensors *)
Lemma app_cancel_l a b c : (a ++ b = a ++ c)%string -> b = c.
Proof. induction a as [|x a IH]; cbn; intros H; [exact H|]. injection H as H. exact (IH H). Qed.
Definition cross0 : ascii := Ascii.ascii_of_nat 195.
Lemma cross_eq : exists r, "×" = String cross0 r.
Proof. eexists. reflexivity. Qed.
Lemma join_shape_inj l : forall l', join "×" (map show l) = join "×" (map show l') -> l <> [] -> l' <> [] -> l = l'.
Proof.
  destruct cross_eq as [r Er]. rewrite Er.
  assert (Hs : forall n, has_char cross0 (show n) = false) by (intros n; apply show_no; reflexivity).
  assert (Ha : forall a x, has_char cross0 (a ++ String cross0 x) = true) by (intros a x; induction a as [|c a IH]; cbn [append has_char]; [rewrite Ascii.eqb_refl; reflexivity|rewrite IH; apply orb_true_r]).
  assert (J : forall a b l, join (String cross0 r) (map show (a :: b :: l)) = (show a ++ String cross0 (r ++ join (String cross0 r) (map show (b :: l))))%string) by reflexivity.
  induction l as [|n l IH]; intros [|m l'] H Hl Hl'; try contradiction. destruct l as [|n2 l], l' as [|m2 l'].
  - apply show_inj in H. congruence.
  - exfalso. rewrite J in H. pose proof (Hs n) as F. change (show n) with (join (String cross0 r) (map show [n])) in F. rewrite H, Ha in F. discriminate.
  - exfalso. rewrite J in H. pose proof (Hs m) as F. change (show m) with (join (String cross0 r) (map show [m])) in F. rewrite <- H, Ha in F. discriminate.
  - rewrite !J in H. apply split_first in H; try apply Hs. destruct H as [H1 H2]. apply show_inj in H1. subst m. f_equal.
    apply IH; try discriminate. exact (app_cancel_l _ _ _ H2).
Qed.
Lemma prettyshape_inj s s' x y : (prettyshape s ++ "#" ++ x = prettyshape s' ++ "#" ++ y)%string -> s = s' /\ x = y.
Proof.
  assert (B : forall s, exists b, prettyshape s = ("[" ++ b ++ "]")%string /\ has_char "]" b = false /\ b = join "×" (map show s)).
  { intros [|n l]; [exists ""; auto|]. exists (join "×" (map show (n :: l))). split; [reflexivity|]. split; [|reflexivity]. generalize (n :: l). clear. intros l.
    induction l as [|n l IH]; [reflexivity|]. destruct l as [|m l]; [apply show_no; reflexivity|].
    change (join "×" (map show (n :: m :: l))) with (show n ++ "×" ++ join "×" (map show (m :: l)))%string. rewrite !has_char_app, IH. rewrite show_no by reflexivity. reflexivity. }
  destruct (B s) as (b & Eb & Hb & Jb). destruct (B s') as (b' & Eb' & Hb' & Jb'). rewrite Eb, Eb'. clear Eb Eb' B. intros H.
  rewrite !sapp_assoc in H. cbn [append] in H. injection H as H.
  apply split_first in H; [|assumption|assumption]. destruct H as [H1 H2]. injection H2 as H2. split; [|exact H2].
  assert (E : join "×" (map show s) = join "×" (map show s')) by congruence. clear - E. assert (N : forall n l, join "×" (map show (n :: l)) <> "").
  { intros n l F. destruct (show n) as [|c0 x0] eqn:En; [exact (show_nonempty n En)|]. destruct l; cbn [map join] in F; rewrite En in F; discriminate. }
  destruct s as [|n s], s' as [|m s']; [reflexivity| | |apply join_shape_inj; [exact E|discriminate|discriminate]]; exfalso; [exact (N m s' (eq_sym E))|exact (N n s E)].
Qed.
(** The text of a tensor determines the last part of its dtype, its shape, whether it carries a gradient
    function and the hash of its values. *)
Theorem C79_tensor : forall t t' s, has_char "[" (at_dtype t) = false -> has_char "[" (at_dtype t') = false ->
  tensor_show (ArgTensor t) = Ok s -> tensor_show (ArgTensor t') = Ok s ->
  after_last_dot (at_dtype t) "" = after_last_dot (at_dtype t') "" /\ at_shape t = at_shape t' /\
  at_grad t = at_grad t' /\ at_hash t = at_hash t'.
Proof.
  assert (A : forall s cur, has_char "[" s = false -> has_char "[" cur = false -> has_char "[" (after_last_dot s cur) = false).
  { induction s as [|c s IH]; intros cur Hs Hc; [exact Hc|]. cbn [has_char] in Hs. apply orb_false_elim in Hs. destruct Hs as [H1 H2]. cbn [after_last_dot].
    destruct (Ascii.eqb c "."); apply IH; try assumption; [reflexivity|]. rewrite has_char_app, Hc. cbn [has_char]. rewrite H1. reflexivity. }
  intros t t' s Ht Ht' H H'. cbn in H, H'. rewrite <- H in H'. clear H s. injection H' as H'.
  pose proof (A _ "" Ht eq_refl) as P. pose proof (A _ "" Ht' eq_refl) as P'. revert P P' H'.
  generalize (after_last_dot (at_dtype t) "") (after_last_dot (at_dtype t') ""). intros x y P P' H'.
  assert (B : forall s r, exists u, (prettyshape s ++ r = String "[" u)%string) by (intros [|n l] r; eexists; reflexivity).
  assert (E : y = x).
  { match type of H' with (_ ++ prettyshape ?a ++ ?b = _ ++ prettyshape ?c ++ ?d)%string => destruct (B a b) as [u Eu]; destruct (B c d) as [u' Eu']; rewrite Eu, Eu' in H' end.
    apply split_first in H'; tauto. }
  subst y. split; [reflexivity|].
  apply app_cancel_l in H'. apply (prettyshape_inj (at_shape t') (at_shape t)) in H'. destruct H' as [Hs H']. split; [congruence|].
  destruct (at_grad t), (at_grad t'); cbn in H'; try discriminate; injection H' as H'; auto.
Qed.
Print Assumptions C79_tensor.
Example C79_tensor_case : tensor_show (ArgTensor (mkAten "torch.float32" [2; 3] true "abcd1234")) = Ok "float32[2×3]#∇abcd1234" /\
  tensor_show (ArgTensor (mkAten "torch.float32" [] false "abcd1234")) = Ok "float32[]# abcd1234".
Proof. split; reflexivity. Qed.
(** the mark before the hash says whether the tensor carries a gradient function *)
Theorem C79_gradient : forall t, exists p, tensor_show (ArgTensor t) = Ok (p ++ (if at_grad t then "#∇" else "# ") ++ at_hash t)%string /\
  thash (ArgTensor t) = Ok ((if at_grad t then "#∇" else "# ") ++ at_hash t)%string.
Proof.
  intros t. exists (after_last_dot (at_dtype t) "" ++ prettyshape (at_shape t))%string. cbn. rewrite sapp_assoc. destruct (at_grad t); split; reflexivity.
Qed.
Print Assumptions C79_gradient.
(** numpy arrays, which show and thash declare to accept, cannot be shown *)
Theorem C79_ndarray_refuted : tensor_show ArgNdarray = Err TypeError /\ thash ArgNdarray = Err AttributeError.
Proof. split; reflexivity. Qed.
Print Assumptions C79_ndarray_refuted.
