(** C56, C57: data files and batches of /repo/experiments/apgs/main.py. *)
From Coq Require Import Lia Ascii.
From Verif Require Import Training KeyFacts Thm_Annealing.
Open Scope nat_scope.

(** ** C56: the data files that are read *)
Lemma app_inv_l (a b c : string) : (a ++ b)%string = (a ++ c)%string -> b = c.
Proof. induction a; cbn; intros H; [exact H|]. injection H as H. apply IHa. exact H. Qed.
Lemma split_unique c u v x y : has_char c u = false -> has_char c v = false ->
  (u ++ String c v)%string = (x ++ String c y)%string -> x = u /\ y = v.
Proof.
  revert x. induction u as [|h u IH]; intros [|g x]; cbn [append has_char]; intros Hu Hv E.
  - injection E as E. auto.
  - injection E as E1 E2. subst v. rewrite has_char_app in Hv. cbn in Hv. rewrite Ascii.eqb_refl, orb_true_r in Hv. discriminate.
  - injection E as E1 E2. subst h. rewrite Ascii.eqb_refl in Hu. discriminate.
  - injection E as -> E2. apply orb_false_elim in Hu. destruct (IH x) as [-> ->]; tauto.
Qed.
Lemma prefix_before c a b x y : has_char c b = false -> (a ++ String c x)%string = (b ++ y)%string ->
  exists s, a = (b ++ s)%string.
Proof.
  revert b. induction a as [|h a IH]; intros [|g b]; cbn [append has_char]; intros Hb E.
  - exists ""; reflexivity.
  - injection E as E1 E2. subst g. rewrite Ascii.eqb_refl in Hb. discriminate.
  - eexists. reflexivity.
  - injection E as -> E2. apply orb_false_elim in Hb. destruct (IH b) as [s ->]; [tauto|exact E2|]. exists s. reflexivity.
Qed.
Lemma app_assoc_s (a b c : string) : ((a ++ b) ++ c)%string = (a ++ b ++ c)%string.
Proof. induction a; cbn; [reflexivity|]. rewrite IHa. reflexivity. Qed.
Lemma show_no c n : digit c = false -> has_char c (show n) = false.
Proof. intros H. destruct (has_char c (show n)) eqn:E; [|reflexivity]. apply show_digits in E. congruence. Qed.
Lemma ends_with_app s a : ends_with s (a ++ s)%string = true.
Proof.
  induction a as [|h a IH]; cbn [append ends_with].
  - destruct s; cbn [ends_with]; rewrite String.eqb_refl; reflexivity.
  - rewrite IH, orb_true_r. reflexivity.
Qed.
Lemma chunk_ends t o c : ends_with ".pt" (chunk_file t o c) = true.
Proof.
  unfold chunk_file.
  replace ("seq-timesteps=" ++ show t ++ "-objects=" ++ show o ++ "-p" ++ show c ++ ".pt")%string
    with (("seq-timesteps=" ++ show t ++ "-objects=" ++ show o ++ "-p" ++ show c) ++ ".pt")%string
    by (rewrite ?app_assoc_s; reflexivity).
  apply ends_with_app.
Qed.

(** the decimal writing of [o] is a beginning of the decimal writing of [o'] *)
Definition decimal_prefix (o o' : nat) : Prop := exists s, show o' = (show o ++ s)%string.

Lemma wanted_chunk t o t' o' c : substr (wanted t o) (chunk_file t' o' c) = true <-> t' = t /\ decimal_prefix o o'.
Proof.
  rewrite substr_app. split.
  - intros (p & r & E). unfold chunk_file, wanted in E.
    change ("seq-timesteps=" ++ show t' ++ "-objects=" ++ show o' ++ "-p" ++ show c ++ ".pt")%string
      with ("seq-ti" ++ String "m" ("esteps=" ++ show t' ++ "-objects=" ++ show o' ++ "-p" ++ show c ++ ".pt"))%string in E.
    replace (p ++ ("timesteps=" ++ show t ++ "-objects=" ++ show o) ++ r)%string
      with ((p ++ "ti") ++ String "m" ("esteps=" ++ show t ++ "-objects=" ++ show o ++ r))%string in E
      by (rewrite !app_assoc_s; reflexivity).
    apply split_unique in E; [|reflexivity|].
    2:{ rewrite !has_char_app, !show_no by reflexivity. reflexivity. }
    destruct E as (_ & E). apply app_inv_l in E. cbn [append] in E.
    apply split_first in E; try (apply show_no; reflexivity). destruct E as (E1 & E2). apply show_inj in E1.
    split; [congruence|]. apply (app_inv_l "objects=") in E2. symmetry in E2.
    change ("-p" ++ show c ++ ".pt")%string with (String "-" ("p" ++ show c ++ ".pt"))%string in E2.
    apply prefix_before in E2; [exact E2|apply show_no; reflexivity].
  - intros (-> & s & Es). exists "seq-", (s ++ "-p" ++ show c ++ ".pt")%string. unfold chunk_file, wanted. rewrite Es.
    rewrite !app_assoc_s. reflexivity.
Qed.
Lemma decimal_prefix_refl o : decimal_prefix o o.
Proof. exists "". clear. induction (show o) as [|a s IH]; cbn; [reflexivity|]. f_equal. exact IH. Qed.
Lemma decimal_prefix_bound o o' : decimal_prefix o o' -> o' = o \/ 10 * o <= o'.
Proof.
  intros (s & E). assert (H : substr (gname o) (gname o') = true).
  { apply substr_app. exists "", s. unfold gname. cbn [append]. rewrite E. reflexivity. }
  apply substr_gname in H. destruct H; [left; congruence|right; exact H].
Qed.

(** A directory holding the files of any number of simulations, in any order: [has t o c] is the
    file of part [c] of the simulation with [t] time steps and [o] objects. *)
Definition simulated (dir : list string) : Prop := forall f, In f dir -> exists t o c, f = chunk_file t o c.

(** Every part of the requested simulation is read; if there is none (and no file of a simulation
    with the same number of time steps and an object count that begins with the same digits), ValueError. *)
Theorem C56_all_found (data_dir : string) (dir : list string) (timesteps num_objects c : nat) :
  In (chunk_file timesteps num_objects c) dir ->
  exists paths, get_data_paths data_dir dir timesteps num_objects = Ok paths /\
    In (data_dir ++ "/video/" ++ chunk_file timesteps num_objects c)%string paths.
Proof.
  intros Hin. unfold get_data_paths.
  assert (H : In (chunk_file timesteps num_objects c)
      (filter (fun file => ends_with ".pt" file && substr (wanted timesteps num_objects) file) dir)).
  { apply filter_In. split; [exact Hin|]. rewrite chunk_ends. cbn [andb]. apply wanted_chunk. split; [reflexivity|apply decimal_prefix_refl]. }
  cbv zeta. rewrite map_length. set (fl := filter _ dir) in *.
  assert (Hl : (length fl =? 0) = false) by (apply Nat.eqb_neq; destruct fl; [destruct H|discriminate]).
  rewrite Hl. eexists. split; [reflexivity|]. apply (in_map (fun file => data_dir ++ "/video/" ++ file)%string). exact H.
Qed.
Print Assumptions C56_all_found.

(** What is read from such a directory, exactly. *)
Theorem C56_exactly (data_dir : string) (dir : list string) (timesteps num_objects : nat) (paths : list string) (f : string) :
  simulated dir -> get_data_paths data_dir dir timesteps num_objects = Ok paths ->
  In (data_dir ++ "/video/" ++ f)%string paths <->
  exists o c, f = chunk_file timesteps o c /\ decimal_prefix num_objects o /\ In f dir.
Proof.
  intros Hs H. unfold get_data_paths in H. cbv zeta in H.
  destruct (Nat.eqb _ 0); [discriminate|]. injection H as <-. rewrite in_map_iff. split.
  - intros (g & Eg & Hg). apply app_inv_l in Eg. apply (app_inv_l "/video/") in Eg. subst g. apply filter_In in Hg. destruct Hg as (Hin & Hg).
    destruct (Hs f Hin) as (t & o & c & ->). rewrite chunk_ends in Hg. cbn [andb] in Hg. apply wanted_chunk in Hg. destruct Hg as (-> & Hp).
    exists o, c. auto.
  - intros (o & c & -> & Hp & Hin). eexists. split; [reflexivity|]. apply filter_In. split; [exact Hin|].
    rewrite chunk_ends. cbn [andb]. apply wanted_chunk. auto.
Qed.
Print Assumptions C56_exactly.

(** Only the requested simulation is read, when no stored simulation has ten times as many objects.
    Missing from the full property: other directories, for which it is false (C56_only_requested_refuted). *)
Theorem C56_only_requested_partial (data_dir : string) (dir : list string) (timesteps num_objects : nat) (paths : list string) (f : string) :
  simulated dir -> (forall t o c, In (chunk_file t o c) dir -> o < 10 * num_objects) ->
  get_data_paths data_dir dir timesteps num_objects = Ok paths ->
  In (data_dir ++ "/video/" ++ f)%string paths -> exists c, f = chunk_file timesteps num_objects c.
Proof.
  intros Hs Hb H Hf. apply (C56_exactly _ _ _ _ _ _ Hs H) in Hf. destruct Hf as (o & c & -> & Hp & Hin).
  apply decimal_prefix_bound in Hp. specialize (Hb _ _ _ Hin). exists c. destruct Hp as [->|Hp]; [reflexivity|lia].
Qed.
Print Assumptions C56_only_requested_partial.

(** In general it is false: asking for 3 objects also reads the videos with 30 objects. *)
Theorem C56_only_requested_refuted : exists data_dir dir timesteps num_objects paths f,
  simulated dir /\ get_data_paths data_dir dir timesteps num_objects = Ok paths /\
  In (data_dir ++ "/video/" ++ f)%string paths /\ forall c, f <> chunk_file timesteps num_objects c.
Proof.
  exists ".", [chunk_file 10 3 1; chunk_file 10 30 1], 10, 3. eexists. exists (chunk_file 10 30 1).
  split; [intros f [<-|[<-|[]]]; repeat eexists|]. split; [vm_compute; reflexivity|]. split; [right; left; reflexivity|].
  intros c E. unfold chunk_file in E. repeat (apply app_inv_l in E). cbn in E. discriminate.
Qed.
Print Assumptions C56_only_requested_refuted.

(** With nothing to read, ValueError. *)
Theorem C56_nothing (data_dir : string) (dir : list string) (timesteps num_objects : nat) :
  simulated dir -> (forall o c, decimal_prefix num_objects o -> ~ In (chunk_file timesteps o c) dir) ->
  get_data_paths data_dir dir timesteps num_objects = Err ValueError.
Proof.
  intros Hs Hn. unfold get_data_paths. cbv zeta. rewrite map_length. destruct (filter _ dir) as [|f l] eqn:E; [reflexivity|exfalso].
  assert (Hf : In f (filter (fun file => ends_with ".pt" file && substr (wanted timesteps num_objects) file) dir)) by (rewrite E; left; reflexivity).
  apply filter_In in Hf. destruct Hf as (Hin & Hf). destruct (Hs f Hin) as (t & o & c & ->).
  rewrite chunk_ends in Hf. cbn [andb] in Hf. apply wanted_chunk in Hf. destruct Hf as (-> & Hp). exact (Hn _ _ Hp Hin).
Qed.
Print Assumptions C56_nothing.

Example C56_case :
  get_data_paths "./dataset" [chunk_file 10 3 1; chunk_file 10 5 1; chunk_file 20 3 1; chunk_file 10 3 2] 10 3 =
  Ok ["./dataset/video/seq-timesteps=10-objects=3-p1.pt"; "./dataset/video/seq-timesteps=10-objects=3-p2.pt"].
Proof. reflexivity. Qed.

(** ** C57: the batches of one file *)
Lemma slices_concat {A} (l : list A) bs n : concat (map (fun b => slice l (b * bs) ((b + 1) * bs)) (seq 0 n)) = firstn (n * bs) l.
Proof.
  induction n as [|n IH]; [reflexivity|]. rewrite seq_S, map_app, concat_app, IH. cbn [plus map concat]. rewrite app_nil_r.
  unfold slice. replace ((n + 1) * bs - n * bs) with bs by lia. replace (S n * bs) with (n * bs + bs) by lia.
  clear IH. revert l. generalize (n * bs) as k. clear. induction k as [|k IH]; intros l; [reflexivity|].
  destruct l as [|x l]; [cbn; rewrite firstn_nil; reflexivity|]. cbn [plus firstn skipn app]. f_equal. apply IH.
Qed.

(** No sequence is used twice in one pass over a file; with at most batch_size sequences there is
    one batch with all of them; otherwise every batch has exactly batch_size sequences and fewer than
    batch_size sequences are left out. *)
Theorem C57_batches (N batch_size : nat) (perm : list nat) :
  1 <= batch_size -> Permutation perm (seq 0 N) ->
  exists bs, batches N batch_size perm = Ok bs /\ NoDup (concat bs) /\ (forall i, In i (concat bs) -> i < N) /\
    (N <= batch_size -> bs = [perm]) /\
    (batch_size < N -> (forall b, In b bs -> length b = batch_size) /\
       length bs * batch_size <= N /\ N < length bs * batch_size + batch_size /\ length (concat bs) = length bs * batch_size).
Proof.
  intros Hb HP. pose proof (Permutation_length HP) as HL. rewrite seq_length in HL.
  assert (HN : NoDup perm) by (eapply Permutation_NoDup; [symmetry; exact HP|apply seq_NoDup]).
  unfold batches, num_batches. destruct (Nat.leb_spec N batch_size) as [H|H].
  - cbn [rmap seq map]. unfold slice. cbn [mult plus skipn]. rewrite Nat.add_0_r, Nat.sub_0_r, firstn_all2 by lia.
    eexists. split; [reflexivity|]. cbn [concat]. rewrite app_nil_r. split; [exact HN|]. split.
    + intros i Hi. eapply Permutation_in in Hi; [|exact HP]. apply in_seq in Hi. lia.
    + split; [reflexivity|lia].
  - destruct (Nat.eqb_spec batch_size 0) as [|_]; [lia|]. cbn [rmap]. eexists. split; [reflexivity|]. rewrite slices_concat.
    pose proof (Nat.div_mod N batch_size ltac:(lia)) as HD. pose proof (Nat.mod_upper_bound N batch_size ltac:(lia)) as HM.
    set (n := N / batch_size) in *. rewrite map_length, seq_length. split.
    { rewrite <- (firstn_skipn (n * batch_size) perm) in HN. clear -HN.
      induction (firstn (n * batch_size) perm) as [|x l IH]; [constructor|]. cbn in HN. inversion HN; subst. constructor; [|auto].
      intros Hx. apply H1. apply in_or_app. left. exact Hx. }
    split.
    { intros i Hi. assert (In i perm) by (rewrite <- (firstn_skipn (n * batch_size) perm); apply in_or_app; left; exact Hi).
      eapply Permutation_in in H0; [|exact HP]. apply in_seq in H0. lia. }
    split; [lia|]. intros _. split; [|split; [|split]].
    + intros b Hin. apply in_map_iff in Hin. destruct Hin as (k & <- & Hk). apply in_seq in Hk. unfold slice.
      rewrite firstn_length, skipn_length. nia.
    + nia.
    + nia.
    + rewrite firstn_length. nia.
Qed.
Print Assumptions C57_batches.

(** It is false that an epoch uses every sequence: 25 sequences in batches of 10 use only 20. *)
Theorem C57_all_used_refuted : exists N batch_size perm bs i,
  Permutation perm (seq 0 N) /\ batches N batch_size perm = Ok bs /\ i < N /\ ~ In i (concat bs).
Proof.
  exists 25, 10, (seq 0 25). eexists. exists 24. split; [reflexivity|]. split; [vm_compute; reflexivity|]. split; [lia|].
  vm_compute. intuition discriminate.
Qed.
Print Assumptions C57_all_used_refuted.

(** It is true when the batch size divides the size of the file. *)
Theorem C57_all_used (N batch_size : nat) (perm : list nat) (bs : list (list nat)) :
  1 <= batch_size -> Permutation perm (seq 0 N) -> Nat.modulo N batch_size = 0 ->
  batches N batch_size perm = Ok bs -> Permutation (concat bs) (seq 0 N).
Proof.
  intros Hb HP Hm H. destruct (Nat.le_gt_cases N batch_size) as [Hle|Hgt].
  - destruct (C57_batches N batch_size perm Hb HP) as (bs' & E & _ & _ & Hone & _). rewrite E in H. injection H as <-.
    rewrite (Hone Hle). cbn. rewrite app_nil_r. exact HP.
  - unfold batches, num_batches in H. destruct (Nat.leb_spec N batch_size); [lia|]. destruct (Nat.eqb_spec batch_size 0); [lia|].
    cbn [rmap] in H. injection H as <-. rewrite slices_concat. pose proof (Nat.div_mod N batch_size ltac:(lia)) as HD.
    pose proof (Permutation_length HP) as HL. rewrite seq_length in HL. rewrite firstn_all2 by nia. exact HP.
Qed.
Print Assumptions C57_all_used.

(** The budget: sample_size particles for each of the num_sweeps + 1 sweeps cost at most the budget,
    and one more particle would exceed it; a budget below one particle per sweep is refused. *)
Theorem C57_budget (budget num_sweeps : nat) :
  (budget < num_sweeps + 1 /\ sample_size budget num_sweeps = Err AssertionError) \/
  exists n, sample_size budget num_sweeps = Ok n /\ 1 <= n /\
    n * (num_sweeps + 1) <= budget /\ budget < (n + 1) * (num_sweeps + 1).
Proof.
  unfold sample_size. cbv zeta.
  pose proof (Nat.div_mod budget (num_sweeps + 1) ltac:(lia)) as HD. pose proof (Nat.mod_upper_bound budget (num_sweeps + 1) ltac:(lia)) as HM.
  destruct (Nat.ltb_spec 0 (budget / (num_sweeps + 1))) as [H|H].
  - right. eexists. split; [reflexivity|]. nia.
  - left. split; [nia|reflexivity].
Qed.
Print Assumptions C57_budget.
Example C57_case : batches 7 3 [6;0;3;1;5;2;4] = Ok [[6;0;3];[1;5;2]] /\ sample_size 120 5 = Ok 20.
Proof. split; reflexivity. Qed.
