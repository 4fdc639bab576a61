(** ParArg_Props.v - C34: argsort on threads, with and without cutoffs; C35: lexsort on threads. *)
From Coq Require Import SpecFloat Sorted.
From Verif Require Import Base Threads_Model Sort_Model SortCmp_Model Sort_Base_Proofs Sort_Insert_Proofs SortCmp_Proofs
  Sort_Heap_Proofs Sort_Quick_Proofs Sort_Merge_Base_Proofs Sort_Merge_Proofs Sort_MergeNum_Proofs Sort_Props
  Jobs_Model ParSort_Model ParSort_Tree_Proofs ParSort_Proofs ParSort_Props.

(** the merge kind compares with the bare < in its last merge, so needs keys without NaN *)
Definition key_fits (n : Z) (mode : sort_mode) (k : key) : Prop := key_wf n k /\ (mode = MERGE -> key_nonan n k).
Definition not_string (k : key) : Prop := match k with KStr _ _ => False | _ => True end.

(** SortIndex on part of an index array *)
Lemma sort_index_col (col : column) (lt : Z -> Z -> bool) (P : Z -> Prop) F mode n :
  strict_weak lt -> (forall x y, P x -> P y -> lt_at col x y = Some (lt x y)) ->
  (mode = MERGE -> forall x y, P x -> P y -> rawlt_at col x y = Some (lt x y)) -> n < 2 ^ 63 -> 2 * n + 1 < Z.of_nat F ->
  forall start size ws (m : Z -> Z) ok (Q : unit -> (Z -> Z) -> Prop),
    0 <= size <= n -> disjoint start size ws (size / 2) ->
    (forall x, start <= x < start + size -> ok x = true) -> (forall x, ws <= x < ws + size / 2 -> ok x = true) ->
    (forall x, start <= x < start + size -> P (m x)) ->
    (forall m', rel_of lt mode (seg m start (start + size)) (seg m' start (start + size)) -> sorted_seg lt m' start (start + size) ->
       same_out2 m m' start (start + size) ws (ws + size / 2) -> Q tt m') ->
    wp ok (sort_index F mode col start size ws) Q m.
Proof.
  intros SW Hlt Hraw Hn HF start size ws m ok Q Hs Hd Ho1 Ho2 HP HQ. unfold sort_index.
  assert (En : start + size - start = size) by lia.
  assert (Hd' : ws + size / 2 <= start \/ start + size <= ws) by (unfold disjoint in Hd; lia).
  destruct (is_string col).
  - eapply (mergesort0string_ok F _ lt P); try assumption; try lia; rewrite ?En; try assumption.
    intros m' (A1 & A2 & A3). apply HQ; try assumption. now apply rel_of_srel.
  - destruct mode.
    + apply (quicksort_ok F _ lt P); auto; try lia.
      intros m' (A1 & A2 & A3). apply HQ; [exact A1|exact A2|]. intros x Hx _. now apply A3.
    + apply (heapsort_ok F _ lt P); auto; try lia.
      intros m' (A1 & A2 & A3). apply HQ; [exact A1|exact A2|]. intros x Hx _. now apply A3.
    + unfold amergesort_.
      apply (proj1 (amergesort_both F _ lt P Hlt SW ok _ (Hraw eq_refl) F)); try assumption; try lia; rewrite ?En; try assumption.
      intros m' (A1 & A2 & A3). apply HQ; try assumption.
Qed.
Lemma sort_index_gen n k F mode : key_fits n mode k -> n < 2 ^ 63 -> 2 * n + 1 < Z.of_nat F ->
  forall start size ws (m : Z -> Z) ok (Q : unit -> (Z -> Z) -> Prop),
    0 <= size <= n -> disjoint start size ws (size / 2) ->
    (forall x, start <= x < start + size -> ok x = true) -> (forall x, ws <= x < ws + size / 2 -> ok x = true) ->
    (forall x, start <= x < start + size -> row_in n (m x)) ->
    (forall m', rel_of (klt k) mode (seg m start (start + size)) (seg m' start (start + size)) -> sorted_seg (klt k) m' start (start + size) ->
       same_out2 m m' start (start + size) ws (ws + size / 2) -> Q tt m') ->
    wp ok (sort_index F mode (col_of n k) start size ws) Q m.
Proof.
  intros [Hk Hnan] Hn HF. apply (sort_index_col (col_of n k) (klt k) (row_in n)); try assumption.
  - apply sw_klt.
  - now apply col_lt_ok.
  - intros E. apply col_raw_ok; auto.
Qed.

Lemma perm_rows n start (m : Z -> Z) : Permutation (items m start (start + n)) (zrange 0 n) ->
  forall x, start <= x < start + n -> row_in n (m x).
Proof.
  intros H x Hx. unfold row_in. apply zrange_In. eapply Permutation_in; [exact H|]. apply in_map, zrange_In. lia.
Qed.

(** the address ranges: index array, workspace *)
Definition arg_layout (start pw n : Z) : Prop := disjoint start n pw (8 * AllocChunk n).
Lemma arg_layout_ok start pw n : arg_layout start pw n -> layout start start pw pw n.
Proof. intros H. constructor; unfold arg_layout, disjoint in *; auto. Qed.

Section Tree.
  Variables (F : nat) (mode : sort_mode) (k : key) (start pw n wakeup : Z) (zz : bool) (m : Z -> Z).
  Hypothesis Hk : key_fits n mode k.
  Hypothesis Hn : 64 <= n < 2 ^ 63.
  Hypothesis HF : 2 * n + 1 < Z.of_nat F.
  Hypothesis HL : arg_layout start pw n.
  Hypothesis Hperm : Permutation (items m start (start + n)) (zrange 0 n).
  Hypothesis Hw : 0 <= wakeup.

  Lemma leaf_same i : argsort_leaf F mode (col_of n k) start pw n i = gleaf F (sort_index F mode (col_of n k)) start start pw n i.
  Proof. unfold gleaf. now rewrite Z.eqb_refl. Qed.
  Lemma prun_ext {T} (leaf leaf' : Z -> prog T unit) merge K : (forall i, leaf i = leaf' i) -> forall sched s, prun leaf merge K s sched = prun leaf' merge K s sched.
  Proof.
    intros E sched s. unfold prun. f_equal. generalize (mkQ s (fun _ : Z => @nil (Z * T))). induction sched as [|e sched IH]; intros t; [reflexivity|].
    change (qrun leaf merge K (qevent leaf merge K e t) sched = qrun leaf' merge K (qevent leaf' merge K e t) sched). rewrite IH. f_equal.
    assert (X : forall c s', pstep leaf merge K c s' = pstep leaf' merge K c s').
    { intros c s'. unfold pstep, part_callback. destruct (cpcs (pc s') c); try (destruct (cpcs (cstep IndexMode c (pc s')) c); now rewrite ?E). }
    unfold qevent, qthread. now rewrite X.
  Qed.

  Notation run sched := (par_argsort F mode (col_of n k) start pw n wakeup zz m sched).
  Lemma run_is sched : run sched = prun (gleaf F (sort_index F mode (col_of n k)) start start pw n) (merge_node F (lt_at (col_of n k)) start pw n) 3 (pstart NumCores wakeup zz m) sched.
  Proof. apply prun_ext. exact leaf_same. Qed.

  Lemma argsort_result sched : returned (run sched) ->
    rel_of (klt k) mode (seg m start (start + n)) (seg (pm (run sched)) start (start + n)) /\
    sorted_seg (klt k) (pm (run sched)) start (start + n) /\
    (forall x, ~ (start <= x < start + n) -> ~ (pw <= x < pw + 8 * AllocChunk n) -> pm (run sched) x = m x) /\
    Permutation (plog (run sched)) all_merges.
  Proof.
    intros Hret. rewrite run_is in *.
    destruct (par_result F (lt_at (col_of n k)) (klt k) (row_in n) (col_lt_ok n k (proj1 Hk)) (sw_klt k)
       (rel_of (klt k) mode) (rel_of_perm _ mode) (rel_of_srel _ mode) (rel_of_trans _ mode) (rel_of_app _ mode)
       (sort_index F mode (col_of n k)) start start pw pw n wakeup zz m Hw ltac:(lia) ltac:(lia) (arg_layout_ok _ _ _ HL)
       (perm_rows n start m Hperm) (sort_index_gen n k F mode Hk ltac:(lia) HF) sched 0 Hret) as (H1 & H2 & H3 & H4 & H5).
    split; [exact H1|]. split; [exact H2|]. split; [intros x X1 X2; now apply H3|now apply log_merges].
  Qed.

  Lemma argsort_safe sched c c' : let s := run sched in
    in_callback s c -> pp s c <> TBad /\
    (c' <> c -> in_callback s c' -> forall x, next_addr (pp s c) = Some x -> next_addr (pp s c') <> Some x).
  Proof.
    cbn zeta. rewrite run_is.
    exact (par_safe F (lt_at (col_of n k)) (klt k) (row_in n) (col_lt_ok n k (proj1 Hk)) (sw_klt k)
       (rel_of (klt k) mode) (rel_of_perm _ mode) (rel_of_srel _ mode) (rel_of_trans _ mode) (rel_of_app _ mode)
       (sort_index F mode (col_of n k)) start start pw pw n wakeup zz m Hw ltac:(lia) ltac:(lia) (arg_layout_ok _ _ _ HL)
       (perm_rows n start m Hperm) (sort_index_gen n k F mode Hk ltac:(lia) HF) sched c c').
  Qed.

  Lemma argsort_can_return : 1 <= wakeup -> forall sched, exists sched', returned (run (sched ++ sched')).
  Proof.
    intros Hw1 sched.
    destruct (par_can_return F (lt_at (col_of n k)) (klt k) (row_in n) (col_lt_ok n k (proj1 Hk)) (sw_klt k)
       (rel_of (klt k) mode) (rel_of_perm _ mode) (rel_of_srel _ mode) (rel_of_trans _ mode) (rel_of_app _ mode)
       (sort_index F mode (col_of n k)) start start pw pw n wakeup zz m Hw ltac:(lia) ltac:(lia) (arg_layout_ok _ _ _ HL)
       (perm_rows n start m Hperm) (sort_index_gen n k F mode Hk ltac:(lia) HF) Hw1 sched) as (sched' & H).
    exists sched'. unfold returned. rewrite run_is. exact H.
  Qed.
End Tree.

(** C34: argsort on threads. The index array holds 0..n-1 at the start; when the call has returned it holds each row number
    once, keys never decrease, and (merge kind) equal keys are in row order. *)
Theorem C34_par_argsort_stable F k start pw n wakeup zz (m : Z -> Z) sched :
  not_string k -> key_nonan n k -> 64 <= n < 2 ^ 63 -> 2 * n + 1 < Z.of_nat F -> 0 <= wakeup -> arg_layout start pw n ->
  items m start (start + n) = zrange 0 n ->
  let s := par_argsort F MERGE (col_of n k) start pw n wakeup zz m sched in
  returned s ->
  Permutation (items (pm s) start (start + n)) (zrange 0 n) /\
  (forall i j, start <= i < j -> j < start + n ->
     key_lt k (pm s j) (pm s i) = false /\ (key_lt k (pm s i) (pm s j) = false -> pm s i < pm s j)) /\
  (forall x, ~ (start <= x < start + n) -> ~ (pw <= x < pw + 8 * AllocChunk n) -> pm s x = m x) /\
  Permutation (plog s) all_merges.
Proof.
  intros Hns Hnan Hn HF Hw HL Hm s Hret.
  assert (Hwf : key_wf n k) by (destruct k; [exact I|contradiction|exact I]).
  assert (Hp : Permutation (items m start (start + n)) (zrange 0 n)) by (rewrite Hm; apply Permutation_refl).
  destruct (argsort_result F MERGE k start pw n wakeup zz m (conj Hwf (fun _ => Hnan)) Hn HF HL Hp Hw sched Hret) as (H1 & H2 & H3 & H4).
  fold s in H1, H2, H3, H4. cbn [rel_of] in H1.
  assert (Hp' : Permutation (items (pm s) start (start + n)) (zrange 0 n)).
  { eapply Permutation_trans; [apply H1|]. exact Hp. }
  split; [exact Hp'|]. split; [|split; [exact H3|exact H4]].
  assert (Hs : StronglySorted (krow [k]) (seg (pm s) start (start + n))).
  { apply (srel_refine (klt k) (krow []) (sw_klt k) (seg m start (start + n))); [|exact H1|now apply sorted_seg_iff].
    change (seg m start (start + n)) with (items m start (start + n)). rewrite Hm. apply zrange_ssorted. }
  pose proof (perm_rows n start (pm s) Hp') as Hrow. unfold row_in in Hrow.
  intros i j Hi Hj. pose proof (ssorted_seg _ _ _ _ Hs i j Hi Hj) as X. cbn in X.
  rewrite <- !(klt_key n k) by (try assumption; apply Hrow; lia).
  destruct X as [X|(X1 & X2 & X3)]; [|auto]. split; [now apply (sw_asym _ (sw_klt k))|congruence].
Qed.

(** quick and heap kinds, NaN keys included: sorted, ties in any order *)
Theorem C34_par_argsort_quick_heap F mode k start pw n wakeup zz (m : Z -> Z) sched :
  mode <> MERGE -> not_string k -> 64 <= n < 2 ^ 63 -> 2 * n + 1 < Z.of_nat F -> 0 <= wakeup -> arg_layout start pw n ->
  items m start (start + n) = zrange 0 n ->
  let s := par_argsort F mode (col_of n k) start pw n wakeup zz m sched in
  returned s ->
  Permutation (items (pm s) start (start + n)) (zrange 0 n) /\
  (forall i j, start <= i < j -> j < start + n -> key_lt k (pm s j) (pm s i) = false).
Proof.
  intros Hmode Hns Hn HF Hw HL Hm s Hret.
  assert (Hwf : key_wf n k) by (destruct k; [exact I|contradiction|exact I]).
  assert (Hp : Permutation (items m start (start + n)) (zrange 0 n)) by (rewrite Hm; apply Permutation_refl).
  destruct (argsort_result F mode k start pw n wakeup zz m (conj Hwf (fun E => False_ind _ (Hmode E))) Hn HF HL Hp Hw sched Hret) as (H1 & H2 & H3 & H4).
  fold s in H1, H2, H3, H4.
  assert (Hp' : Permutation (items (pm s) start (start + n)) (zrange 0 n)).
  { eapply Permutation_trans; [exact (rel_of_perm _ _ _ _ H1)|]. exact Hp. }
  split; [exact Hp'|]. pose proof (perm_rows n start (pm s) Hp') as Hrow. unfold row_in in Hrow.
  intros i j Hi Hj. rewrite <- (klt_key n k) by (try assumption; apply Hrow; lia). now apply H2.
Qed.

Theorem C34_no_conflict F mode k start pw n wakeup zz (m : Z -> Z) sched :
  not_string k -> (mode = MERGE -> key_nonan n k) -> 64 <= n < 2 ^ 63 -> 2 * n + 1 < Z.of_nat F -> 0 <= wakeup -> arg_layout start pw n ->
  Permutation (items m start (start + n)) (zrange 0 n) ->
  let s := par_argsort F mode (col_of n k) start pw n wakeup zz m sched in
  forall c c', in_callback s c -> pp s c <> TBad /\
    (c' <> c -> in_callback s c' -> forall x, next_addr (pp s c) = Some x -> next_addr (pp s c') <> Some x).
Proof.
  intros Hns Hnan Hn HF Hw HL Hm s c c'.
  assert (Hwf : key_wf n k) by (destruct k; [exact I|contradiction|exact I]).
  exact (argsort_safe F mode k start pw n wakeup zz m (conj Hwf Hnan) Hn HF HL Hm Hw sched c c').
Qed.

Theorem C34_can_return F mode k start pw n wakeup zz (m : Z -> Z) sched :
  not_string k -> (mode = MERGE -> key_nonan n k) -> 64 <= n < 2 ^ 63 -> 2 * n + 1 < Z.of_nat F -> 1 <= wakeup -> arg_layout start pw n ->
  Permutation (items m start (start + n)) (zrange 0 n) ->
  exists sched', returned (par_argsort F mode (col_of n k) start pw n wakeup zz m (sched ++ sched')).
Proof.
  intros Hns Hnan Hn HF Hw HL Hm.
  assert (Hwf : key_wf n k) by (destruct k; [exact I|contradiction|exact I]).
  exact (argsort_can_return F mode k start pw n wakeup zz m (conj Hwf Hnan) Hn HF HL Hm ltac:(lia) Hw sched).
Qed.

(** ** C34 with cutoffs *)
(** cut 0 <= cut 1 <= ... <= cut (parts-1) = n, the ends of the partitions, checked by lexsort only for the last one;
    the caller has to give them in order *)
Definition cutoffs_ok (cut : Z -> Z) (parts n : Z) : Prop :=
  1 <= parts /\ 0 <= cut 0 /\ (forall t, 0 < t < parts -> cut (t - 1) <= cut t) /\ cut (parts - 1) = n.
(** the key of row r of a partition that begins at row ps *)
Definition shift_key (ps : Z) (k : key) : key :=
  match k with KInt v => KInt (fun r => v (ps + r)) | KStr L v => KStr L (fun r => v (ps + r)) | KFlt v => KFlt (fun r => v (ps + r)) end.
(** each partition's workspace is its own block, apart from the index array *)
Definition cut_layout (cut : Z -> Z) (parts start n : Z) (lw : Z -> Z) : Prop :=
  (forall t, 0 <= t < parts -> disjoint start n (lw t) ((cut t - part_start cut t) / 2)) /\
  (forall t t', 0 <= t < parts -> 0 <= t' < parts -> t <> t' ->
     disjoint (lw t) ((cut t - part_start cut t) / 2) (lw t') ((cut t' - part_start cut t') / 2)).
(** partition t of the index array holds each of its row numbers, counted from its own start, once; keys never decrease and
    equal keys are in row order *)
Definition partition_sorted (k : key) (cut : Z -> Z) (start : Z) (m : Z -> Z) (t : Z) : Prop :=
  let ps := part_start cut t in let len := cut t - ps in
  Permutation (items m (start + ps) (start + ps + len)) (zrange 0 len) /\
  forall i j, start + ps <= i < j -> j < start + ps + len ->
    key_lt k (ps + m j) (ps + m i) = false /\ (key_lt k (ps + m i) (ps + m j) = false -> m i < m j).

(** a program changes nothing outside the addresses it may touch *)
Lemma wp_keeps {T A} (ok : Z -> bool) (p : prog T A) (Q : A -> (Z -> T) -> Prop) m :
  wp ok p Q m -> wp ok p (fun a m' => Q a m' /\ forall x, ok x = false -> m' x = m x) m.
Proof.
  revert m. induction p as [a|x f IH|x v f IH| |]; intros m; unfold wp; cbn; try tauto.
  - destruct (ok x) eqn:E; [|tauto]. apply IH.
  - destruct (ok x) eqn:E; [|tauto]. intros H. apply IH in H. unfold wp in H.
    destruct (exec ok f (zupd m x v)); try contradiction. destruct H as [H1 H2]. split; [exact H1|].
    intros y Hy. rewrite H2 by exact Hy. apply zupd_neq. congruence.
Qed.

Section Cut.
  Variables (F : nat) (k : key) (cut : Z -> Z) (start : Z) (lw : Z -> Z) (parts n : Z) (m : Z -> Z).
  Hypothesis Hk : key_wf n k.
  Hypothesis Hnan : key_nonan n k.
  Hypothesis Hn : 0 <= n < 2 ^ 63.
  Hypothesis HF : 2 * n + 1 < Z.of_nat F.
  Hypothesis HC : cutoffs_ok cut parts n.
  Hypothesis HL : cut_layout cut parts start n lw.
  (** lexsort fills each partition with 0, 1, ... *)
  Hypothesis Hfill : forall t, 0 <= t < parts -> items m (start + part_start cut t) (start + cut t) = zrange 0 (cut t - part_start cut t).

  Notation ps t := (part_start cut t).

  Lemma cut_mono t t' : 0 <= t <= t' -> t' < parts -> cut t <= cut t'.
  Proof.
    intros Ht Ht'. destruct HC as (_ & _ & C & _). replace t' with (t + (t' - t)) in * by lia. assert (Hd : 0 <= t' - t) by lia.
    set (d := t' - t) in *. clearbody d. clear t'. revert Ht'. pattern d. apply natlike_ind; [| |exact Hd].
    - intros _. rewrite Z.add_0_r. lia.
    - intros x Hx IH H. specialize (IH ltac:(lia)). specialize (C (t + Z.succ x) ltac:(lia)).
      replace (t + Z.succ x - 1) with (t + x) in C by lia. lia.
  Qed.
  Lemma cut_range t : 0 <= t < parts -> 0 <= ps t /\ ps t <= cut t <= n.
  Proof.
    intros Ht. pose proof HC as (C1 & C2 & C3 & C4). unfold part_start.
    pose proof (cut_mono t (parts - 1) ltac:(lia) ltac:(lia)). pose proof (cut_mono 0 t ltac:(lia) ltac:(lia)).
    destruct (Z.eqb_spec t 0) as [->|]; [lia|].
    pose proof (cut_mono (t - 1) t ltac:(lia) ltac:(lia)). pose proof (cut_mono 0 (t - 1) ltac:(lia) ltac:(lia)). lia.
  Qed.
  Lemma cut_apart t t' : 0 <= t < t' -> t' < parts -> cut t <= ps t'.
  Proof. intros Ht Ht'. unfold part_start. replace (t' =? 0) with false by lia. apply cut_mono; lia. Qed.

  Lemma shift_lt t : 0 <= t < parts -> forall x y, row_in (cut t - ps t) x -> row_in (cut t - ps t) y ->
    lt_at (shift_col (ps t) (col_of n k)) x y = Some (klt (shift_key (ps t) k) x y).
  Proof.
    intros Ht x y Hx Hy. pose proof (cut_range t Ht). unfold row_in in *. cbn [shift_col lt_at].
    rewrite (col_lt_ok n k Hk) by (unfold row_in; lia). now destruct k.
  Qed.
  Lemma shift_raw t : 0 <= t < parts -> forall x y, row_in (cut t - ps t) x -> row_in (cut t - ps t) y ->
    rawlt_at (shift_col (ps t) (col_of n k)) x y = Some (klt (shift_key (ps t) k) x y).
  Proof.
    intros Ht x y Hx Hy. pose proof (cut_range t Ht). unfold row_in in *. cbn [shift_col rawlt_at].
    rewrite (col_raw_ok n k Hk Hnan) by (unfold row_in; lia). now destruct k.
  Qed.

  Definition cok (t x : Z) : bool :=
    inr_ (start + ps t) (start + cut t) x || inr_ (lw t) (lw t + (cut t - ps t) / 2) x.

  Lemma cut_leaf_ok t m1 : 0 <= t < parts -> (forall x, start + ps t <= x < start + cut t -> m1 x = m x) ->
    wp (cok t) (cutoff_leaf F (col_of n k) cut start lw t)
      (fun _ m' => partition_sorted k cut start m' t) m1.
  Proof.
    intros Ht Hm. pose proof (cut_range t Ht) as Hr. unfold cutoff_leaf.
    assert (E0 : seg m1 (start + ps t) (start + cut t) = zrange 0 (cut t - ps t)).
    { rewrite <- (Hfill t Ht). apply seg_ext. exact Hm. }
    assert (Hdl : disjoint (start + ps t) (cut t - ps t) (lw t) ((cut t - ps t) / 2)).
    { destruct HL as [HL1 _]. specialize (HL1 t Ht). unfold disjoint in *. assert (0 <= (cut t - ps t) / 2) by (apply Z.div_pos; lia). lia. }
    apply (sort_index_col (shift_col (ps t) (col_of n k)) (klt (shift_key (ps t) k)) (row_in (cut t - ps t)) F MERGE n
      (sw_klt _) (shift_lt t Ht) (fun _ => shift_raw t Ht)); try lia; try assumption.
    - intros x Hx. unfold cok, inr_. lia.
    - intros x Hx. unfold cok, inr_. lia.
    - intros x Hx. unfold row_in. apply zrange_In. rewrite <- E0. apply seg_In. exists x. split; [lia|reflexivity].
    - replace (start + ps t + (cut t - ps t)) with (start + cut t) by lia. intros m' H1 H2 H3. cbn [rel_of] in H1. rewrite E0 in H1.
      unfold partition_sorted. replace (start + ps t + (cut t - ps t)) with (start + cut t) by lia.
      assert (Hp : Permutation (seg m' (start + ps t) (start + cut t)) (zrange 0 (cut t - ps t))) by apply H1.
      split; [exact Hp|].
      assert (Hs : StronglySorted (krow [shift_key (ps t) k]) (seg m' (start + ps t) (start + cut t))).
      { apply (srel_refine (klt (shift_key (ps t) k)) (krow []) (sw_klt _) (zrange 0 (cut t - ps t))); [apply zrange_ssorted|exact H1|now apply sorted_seg_iff]. }
      assert (Hrow : forall x, start + ps t <= x < start + cut t -> 0 <= m' x < cut t - ps t).
      { intros x Hx. apply zrange_In. eapply Permutation_in; [exact Hp|]. apply seg_In. exists x. split; [lia|reflexivity]. }
      intros i j Hi Hj. pose proof (ssorted_seg _ _ _ _ Hs i j Hi Hj) as X. cbn in X.
      assert (Ek : forall a b, 0 <= a < cut t - ps t -> 0 <= b < cut t - ps t -> key_lt k (ps t + a) (ps t + b) = klt (shift_key (ps t) k) a b).
      { intros a b Ha Hb. rewrite <- (klt_key n k) by (try assumption; lia). now destruct k. }
      rewrite !Ek by (apply Hrow; lia).
      destruct X as [X|(X1 & X2 & X3)]; [|auto]. split; [now apply (sw_asym _ (sw_klt _))|congruence].
  Qed.

  Lemma partition_frame t m1 m2 : 0 <= t < parts -> (forall x, cok t x = true -> m2 x = m1 x) ->
    partition_sorted k cut start m1 t -> partition_sorted k cut start m2 t.
  Proof.
    intros Ht Hx (H1 & H2). pose proof (cut_range t Ht).
    assert (G : forall x, start + ps t <= x < start + ps t + (cut t - ps t) -> m2 x = m1 x) by (intros x Hr; apply Hx; unfold cok, inr_; lia).
    split.
    - change (Permutation (seg m2 (start + ps t) (start + ps t + (cut t - ps t))) (zrange 0 (cut t - ps t))). rewrite (seg_ext m2 m1) by exact G. exact H1.
    - intros i j Hi Hj. rewrite !G by lia. now apply H2.
  Qed.

  Lemma cok_disjoint t t' x : 0 <= t < parts -> 0 <= t' < parts -> t <> t' -> cok t x = true -> cok t' x = true -> False.
  Proof.
    intros Ht Ht' Hne. pose proof (cut_range t Ht). pose proof (cut_range t' Ht'). destruct HL as [L1 L2].
    specialize (L2 t t' Ht Ht' Hne). pose proof (L1 t Ht). pose proof (L1 t' Ht').
    assert (cut t <= ps t' \/ cut t' <= ps t).
    { destruct (Z.lt_ge_cases t t'); [left|right]; apply cut_apart; lia. }
    unfold disjoint, cok, inr_ in *. set (q := (cut t - ps t) / 2) in *. set (q' := (cut t' - ps t') / 2) in *. lia.
  Qed.

  Definition cok_ (l : nat) (t x : Z) : bool := match l with O => cok t x | _ => false end.
  Lemma gnode0 l i : gnode parts 0 l i -> l = 0%nat /\ 0 <= i < parts.
  Proof. intros [H1 H2]. assert (l = 0%nat) by lia. subst l. cbn in H2. lia. Qed.
  Lemma Hleaf0 i : gnode parts 0 0 i -> wp (cok_ 0 i) (cutoff_leaf F (col_of n k) cut start lw i) (fun _ m' => partition_sorted k cut start m' i) m.
  Proof. intros H. apply gnode0 in H. apply cut_leaf_ok; [tauto|auto]. Qed.
  Lemma Hmerge0 l i (m' : Z -> Z) : gnode parts 0 (S l) i -> partition_sorted k cut start m' (2 * i) -> partition_sorted k cut start m' (2 * i + 1) ->
    wp (cok_ (S l) i) (Ret tt) (fun _ m' => partition_sorted k cut start m' i) m'.
  Proof. intros H. apply gnode0 in H. destruct H; discriminate. Qed.
  Lemma Hpost0 l i (m1 m2 : Z -> Z) : gnode parts 0 l i -> (forall x, cok_ l i x = true -> m2 x = m1 x) ->
    partition_sorted k cut start m1 i -> partition_sorted k cut start m2 i.
  Proof. intros H. apply gnode0 in H. destruct H as [-> H]. now apply partition_frame. Qed.
  Lemma Hdis0 l i l' i' x : gnode parts 0 l i -> gnode parts 0 l' i' -> ~ under l i l' i' -> ~ under l' i' l i ->
    cok_ l i x = true -> cok_ l' i' x = true -> False.
  Proof.
    intros H H' U _. apply gnode0 in H, H'. destruct H as [-> H], H' as [-> H']. cbn [cok_]. apply cok_disjoint; try assumption.
    intros ->. apply U. split; [lia|]. cbn. now rewrite Z.div_1_r.
  Qed.

  Theorem cut_tree wakeup zz sched : 0 <= wakeup ->
    let s := par_cutoffs F (col_of n k) cut start lw parts wakeup zz m sched in
    (returned s -> (forall t, 0 <= t < parts -> partition_sorted k cut start (pm s) t) /\
       (forall x, (forall t, 0 <= t < parts -> cok t x = false) -> pm s x = m x)) /\
    (forall c c', in_callback s c -> pp s c <> TBad /\
      (c' <> c -> in_callback s c' -> forall x, next_addr (pp s c) = Some x -> next_addr (pp s c') <> Some x)).
  Proof.
    intros Hw s. pose proof HC as (HP & _).
    assert (E : s = prun (cutoff_leaf F (col_of n k) cut start lw) (fun _ _ => Ret tt) 0 (pstart (parts * 2 ^ Z.of_nat 0) wakeup zz m) sched).
    { unfold s, par_cutoffs. cbn [Z.of_nat]. now rewrite Z.pow_0_r, Z.mul_1_r. }
    split.
    - intros Hret. rewrite E in *.
      destruct (tree_result _ (fun _ _ => Ret tt) parts 0 wakeup zz m cok_ (fun _ i m' => partition_sorted k cut start m' i)
        Hw ltac:(lia) Hleaf0 Hmerge0 Hpost0 Hdis0 sched 0 Hret) as (H1 & H2 & _).
      split; [exact H1|]. intros x Hx. apply H2. intros l i G. apply gnode0 in G. destruct G as [-> G]. now apply Hx.
    - intros c c'. rewrite E.
      exact (tree_safe _ (fun _ _ => Ret tt) parts 0 wakeup zz m cok_ (fun _ i m' => partition_sorted k cut start m' i)
        Hw ltac:(lia) Hleaf0 Hmerge0 Hpost0 Hdis0 sched c c').
  Qed.

  Theorem cut_tree_can_return wakeup zz sched : 1 <= wakeup ->
    exists sched', returned (par_cutoffs F (col_of n k) cut start lw parts wakeup zz m (sched ++ sched')).
  Proof.
    intros Hw. pose proof HC as (HP & _). unfold par_cutoffs, returned.
    pose proof (tree_can_return (cutoff_leaf F (col_of n k) cut start lw) (fun _ _ => Ret tt) parts 0 wakeup zz m cok_ (fun _ i m' => partition_sorted k cut start m' i)
        ltac:(lia) ltac:(lia) Hleaf0 Hmerge0 Hpost0 Hdis0 Hw sched) as H.
    cbn [Z.of_nat] in H. now rewrite Z.pow_0_r, Z.mul_1_r in H.
  Qed.
End Cut.

(** C34 with cutoffs, on threads: every partition is sorted and stable, whatever the interleaving; strings included *)
Theorem C34_cutoffs F k cut start lw parts n wakeup zz (m : Z -> Z) sched :
  key_wf n k -> key_nonan n k -> 0 <= n < 2 ^ 63 -> 2 * n + 1 < Z.of_nat F -> 0 <= wakeup ->
  cutoffs_ok cut parts n -> cut_layout cut parts start n lw ->
  (forall t, 0 <= t < parts -> items m (start + part_start cut t) (start + cut t) = zrange 0 (cut t - part_start cut t)) ->
  let s := par_cutoffs F (col_of n k) cut start lw parts wakeup zz m sched in
  (returned s -> forall t, 0 <= t < parts -> partition_sorted k cut start (pm s) t) /\
  (forall c c', in_callback s c -> pp s c <> TBad /\
      (c' <> c -> in_callback s c' -> forall x, next_addr (pp s c) = Some x -> next_addr (pp s c') <> Some x)).
Proof.
  intros Hk Hnan Hn HF Hw HC HL Hfill s.
  destruct (cut_tree F k cut start lw parts n m Hk Hnan Hn HF HC HL Hfill wakeup zz sched Hw) as [A B]. split; [|exact B].
  intros Hret. apply A. exact Hret.
Qed.

(** and in one thread *)
Theorem C34_cutoffs_one_thread F k cut start lw parts n (m : Z -> Z) :
  key_wf n k -> key_nonan n k -> 0 <= n < 2 ^ 63 -> 2 * n + 1 < Z.of_nat F ->
  cutoffs_ok cut parts n -> cut_layout cut parts start n lw ->
  (forall t, 0 <= t < parts -> items m (start + part_start cut t) (start + cut t) = zrange 0 (cut t - part_start cut t)) ->
  exists m', exec (fun x => existsb (fun t => allowed true (start + part_start cut t) (cut t - part_start cut t) (lw t) x) (zrange 0 parts))
               (seq_cutoffs F (col_of n k) cut start lw parts) m = Finished tt m' /\
    forall t, 0 <= t < parts -> partition_sorted k cut start m' t.
Proof.
  intros Hk Hnan Hn HF HC HL Hfill.
  set (ok := fun x => existsb _ _).
  assert (Hok : forall t x, 0 <= t < parts -> cok cut start lw t x = true -> ok x = true).
  { intros t x Ht Hx. unfold ok. apply existsb_exists. exists t. split; [apply zrange_In; lia|].
    unfold cok, allowed, inr_ in *. cbn. lia. }
  assert (G : forall j t0 m1, t0 + Z.of_nat j = parts -> 0 <= t0 ->
     (forall t, 0 <= t < t0 -> partition_sorted k cut start m1 t) ->
     (forall t x, t0 <= t < parts -> cok cut start lw t x = true -> m1 x = m x) ->
     wp ok (fold_right (fun t p => cutoff_leaf F (col_of n k) cut start lw t ;; p) (Ret tt) (zseq t0 j))
       (fun _ m' => forall t, 0 <= t < parts -> partition_sorted k cut start m' t) m1).
  { induction j as [|j IH]; intros t0 m1 Hj H0 Hd Hm; cbn [zseq fold_right].
    - apply wp_ret. intros t Ht. apply Hd. lia.
    - apply wp_bind.
      assert (Ht0 : 0 <= t0 < parts) by lia.
      pose proof (cut_leaf_ok F k cut start lw parts n m Hk Hnan Hn HF HC HL Hfill t0 m1 Ht0) as W.
      specialize (W ltac:(intros x Hx; apply (Hm t0); [lia|]; unfold cok, inr_; lia)).
      apply wp_keeps in W. apply (wp_weaken _ ok) in W; [|intros x Hx; now apply (Hok t0)].
      eapply wp_conseq; [exact W|]. intros [] m2 [W1 W2]. apply IH; try lia.
      + intros t Ht. destruct (Z.eq_dec t t0) as [->|Hne]; [exact W1|].
        apply (partition_frame F k cut start lw parts n m HC Hfill t m1); [lia| |apply Hd; lia].
        intros x Hx. apply W2. destruct (cok cut start lw t0 x) eqn:E; [|reflexivity]. exfalso.
        exact (cok_disjoint F cut start lw parts n m HC HL Hfill t t0 x ltac:(lia) ltac:(lia) Hne Hx E).
      + intros t x Ht Hx. rewrite W2; [apply (Hm t); [lia|exact Hx]|].
        destruct (cok cut start lw t0 x) eqn:E; [|reflexivity]. exfalso.
        exact (cok_disjoint F cut start lw parts n m HC HL Hfill t t0 x ltac:(lia) ltac:(lia) ltac:(lia) Hx E). }
  pose proof HC as (HP & _).
  specialize (G (Z.to_nat (parts - 0)) 0 m ltac:(lia) ltac:(lia) ltac:(intros; lia) ltac:(reflexivity)).
  apply wp_exec in G. destruct G as ([] & m' & He & H). exists m'. split; [exact He|exact H].
Qed.

Theorem C34_cutoffs_can_return F k cut start lw parts n wakeup zz (m : Z -> Z) sched :
  key_wf n k -> key_nonan n k -> 0 <= n < 2 ^ 63 -> 2 * n + 1 < Z.of_nat F -> 1 <= wakeup ->
  cutoffs_ok cut parts n -> cut_layout cut parts start n lw ->
  (forall t, 0 <= t < parts -> items m (start + part_start cut t) (start + cut t) = zrange 0 (cut t - part_start cut t)) ->
  exists sched', returned (par_cutoffs F (col_of n k) cut start lw parts wakeup zz m (sched ++ sched')).
Proof.
  intros Hk Hnan Hn HF Hw HC HL Hfill.
  exact (cut_tree_can_return F k cut start lw parts n m Hk Hnan Hn HF HC HL Hfill wakeup zz sched Hw).
Qed.

(** * C35 on threads: every column may be sorted alone or threaded with any schedule. String columns must be sorted alone
    (on threads they are refuted, C37). *)
Definition fits_call (n : Z) (kh : key * how) : Prop :=
  key_wf n (fst kh) /\ key_nonan n (fst kh) /\ match snd kh with Alone => True | Threaded _ _ _ => not_string (fst kh) end.

Lemma exec_weaken {T A} (p : prog T A) : forall (ok : Z -> bool) m a m', exec ok p m = Finished a m' -> exec (fun _ => true) p m = Finished a m'.
Proof.
  induction p as [a|x f IH|x v f IH| |]; intros ok m a' m'; cbn; try discriminate; auto;
    destruct (ok x); try discriminate; apply IH.
Qed.

Lemma column_call_ok F k start pw n h (m m' : Z -> Z) done :
  fits_call n (k, h) -> 0 <= n < 2 ^ 63 -> 2 * n + 1 < Z.of_nat F -> arg_layout start pw n -> apart start n pw ->
  Permutation (seg m start (start + n)) (zrange 0 n) -> StronglySorted (krow done) (seg m start (start + n)) ->
  column_call F MERGE (col_of n k) start pw n h m m' ->
  Permutation (seg m' start (start + n)) (zrange 0 n) /\ StronglySorted (krow (k :: done)) (seg m' start (start + n)).
Proof.
  intros (Hk & Hnan & Hs) Hn HF HL Hap Hp Hdone Hc. cbn [fst snd] in *. 
  assert (G : srel (klt k) (seg m start (start + n)) (seg m' start (start + n)) /\ sorted_seg (klt k) m' start (start + n)).
  { destruct h as [|T zz sched]; cbn [column_call] in Hc.
    - assert (W : wp (allowed true start n pw) (sort_index F MERGE (col_of n k) start n pw)
         (fun _ m2 => srel (klt k) (seg m start (start + n)) (seg m2 start (start + n)) /\ sorted_seg (klt k) m2 start (start + n)) m).
      { apply sort_index_merge; try assumption; try lia.
        - exact (perm_rows n start m Hp).
        - intros m2 (A1 & A2 & A3). auto. }
      apply wp_exec in W. destruct W as ([] & m2 & He & W). apply exec_weaken in He. rewrite He in Hc. injection Hc as <-. exact W.
    - destruct Hc as (Hb & HT & Hret & ->). unfold WORK_ITEM_BIG, WORK_ITEM_CHUNK in Hb.
      destruct (argsort_result F MERGE k start pw n T zz m (conj Hk (fun _ => Hnan)) ltac:(lia) HF HL Hp HT sched Hret) as (H1 & H2 & _).
      split; [exact H1|exact H2]. }
  destruct G as [G1 G2]. split; [eapply Permutation_trans; [apply G1|exact Hp]|].
  apply sorted_seg_iff in G2. exact (srel_refine (klt k) (krow done) (sw_klt k) _ _ Hdone G1 G2).
Qed.

(** lexsort with any number of keys, the index array filled with 0..n-1 first: when the last column is done the rows are in
    lexicographic order, the last key deciding first, ties in row order - whatever ran on threads and however it was scheduled *)
Theorem C35_lexsort_threads F (keys : list (key * how)) start pw n (m m' : Z -> Z) :
  (forall kh, In kh keys -> fits_call n kh) ->
  0 <= n < 2 ^ 63 -> 2 * n + 1 < Z.of_nat F -> arg_layout start pw n -> apart start n pw ->
  items m start (start + n) = zrange 0 n ->
  columns_call F MERGE (map (fun kh => (col_of n (fst kh), snd kh)) keys) start pw n m m' ->
  Permutation (items m' start (start + n)) (zrange 0 n) /\
  (forall i j, start <= i < j -> j < start + n -> row_before (map fst keys) (m' i) (m' j)).
Proof.
  intros Hk Hn HF HL Hap Hm Hc.
  assert (G : forall keys done m, (forall kh, In kh keys -> fits_call n kh) ->
     Permutation (seg m start (start + n)) (zrange 0 n) -> StronglySorted (krow done) (seg m start (start + n)) ->
     columns_call F MERGE (map (fun kh => (col_of n (fst kh), snd kh)) keys) start pw n m m' ->
     Permutation (seg m' start (start + n)) (zrange 0 n) /\ StronglySorted (krow (rev (map fst keys) ++ done)) (seg m' start (start + n))).
  { clear Hk Hm Hc m keys. induction keys as [|[k h] keys IH]; intros done m Hk Hp Hd Hc; cbn [map columns_call rev app] in *.
    - subst m'. auto.
    - destruct Hc as (m1 & C1 & C2). cbn [fst snd] in *.
      destruct (column_call_ok F k start pw n h m m1 done (Hk _ (or_introl eq_refl)) Hn HF HL Hap Hp Hd C1) as [A B].
      rewrite <- app_assoc. cbn [app]. apply (IH (k :: done) m1); auto. intros kh Hin. apply Hk. now right. }
  assert (E : seg m start (start + n) = zrange 0 n) by exact Hm.
  destruct (G keys [] m Hk) as [A B]; [rewrite E; apply Permutation_refl|rewrite E; apply zrange_ssorted|exact Hc|].
  rewrite app_nil_r in B. split; [exact A|]. intros i j Hi Hj. unfold row_before.
  pose proof (perm_rows n start m' A) as Hrow.
  apply (krow_rowcmp n); [|apply Hrow; lia|apply Hrow; lia|exact (ssorted_seg _ _ _ _ B i j Hi Hj)].
  intros k' Hin. apply in_rev in Hin. apply in_map_iff in Hin. destruct Hin as (kh & <- & Hin). now apply Hk.
Qed.

(** * concrete runs *)
Example par_argsort_case :
  let s := par_argsort 140 MERGE (col_of 64 (KInt (fun r => (r * 37) mod 8))) 0 100 64 3 false (fun x => x) (turns 1200) in
  returned s /\ items (fun i => ((pm s i) * 37) mod 8) 0 12 = [0;0;0;0;0;0;0;0;1;1;1;1] /\ items (pm s) 0 8 = [0;8;16;24;32;40;48;56].
Proof. vm_compute. repeat split. Qed.
Example arg_layout_case : arg_layout 0 100 64.
Proof. unfold arg_layout, disjoint, AllocChunk, NumCores. cbn. lia. Qed.
(** two partitions, rows 0..4 and 5..7, of string keys *)
Definition cut2 (t : Z) : Z := if t =? 0 then 5 else 8.
Example cutoffs_case :
  let s := par_cutoffs 50 (col_of 8 (KStr 1 (fun r => [(r * 5) mod 4]))) cut2 0 (fun t => 20 + 10 * t) 2 2 false
             (fun x => if x <? 5 then x else x - 5) (flat_map (fun _ => [2; 4; 3; 2; 5; 4; 3; 5]) (seq 0 200) ++ repeat 0 5) in
  returned s /\ items (pm s) 0 8 = [0; 4; 1; 2; 3; 0; 1; 2].
Proof. vm_compute. repeat split. Qed.
Example cutoffs_ok_case : cutoffs_ok cut2 2 8 /\ cut_layout cut2 2 0 8 (fun t => 20 + 10 * t).
Proof.
  split.
  - unfold cutoffs_ok. split; [lia|]. split; [vm_compute; discriminate|]. split; [|reflexivity].
    intros t Ht. assert (t = 1) by lia. subst t. vm_compute. discriminate.
  - unfold cut_layout, disjoint, cut2, part_start. split; intros; assert (t = 0 \/ t = 1) as [-> | ->] by lia;
      try (assert (t' = 0 \/ t' = 1) as [-> | ->] by lia); first [congruence | (left; vm_compute; discriminate) | (right; vm_compute; discriminate)].
Qed.

Print Assumptions C34_par_argsort_stable.
Print Assumptions C34_par_argsort_quick_heap.
Print Assumptions C34_no_conflict.
Print Assumptions C34_can_return.
Print Assumptions C34_cutoffs.
Print Assumptions C34_cutoffs_one_thread.
Print Assumptions C34_cutoffs_can_return.
Print Assumptions C35_lexsort_threads.
