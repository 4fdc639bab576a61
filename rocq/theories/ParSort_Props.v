(** ParSort_Props.v - C33: the parallel sorts, for every interleaving of the memory accesses and of the commits of queued stores (x86-TSO). *)
From Coq Require Import SpecFloat Sorted.
From Verif Require Import Base Threads_Model Sort_Model SortCmp_Model Sort_Base_Proofs Sort_Insert_Proofs SortCmp_Proofs
  Sort_Heap_Proofs Sort_Quick_Proofs Sort_Merge_Base_Proofs Sort_Merge_Proofs Sort_MergeNum_Proofs Sort_Props
  Jobs_Model ParSort_Model ParSort_Tree_Proofs ParSort_Proofs.

(** * Specification *)
(** the sorting call has come back to its caller (core 0) in state s *)
Definition returned {T} (s : pstate T) : Prop := cpcs (pc s) 0 = CReturned.
(** the seven merges of an eight-part sort: four of level 1, two of level 2, one of level 3 *)
Definition all_merges : list (nat * Z) := [(1%nat, 0); (1%nat, 1); (1%nat, 2); (1%nat, 3); (2%nat, 0); (2%nat, 1); (3%nat, 0)].

Lemma log_merges log : NoDup log -> (forall l i, In (l, i) log <-> gnode 1 3 l i /\ (0 < l)%nat) -> Permutation log all_merges.
Proof.
  intros H1 H2. apply NoDup_Permutation; [exact H1|repeat constructor; cbn; intuition discriminate|].
  intros [l i]. rewrite H2. unfold gnode. cbn [all_merges In]. split.
  - intros [[Hl Hi] H0]. destruct l as [|[|[|[|l]]]]; try lia; cbn in Hi.
    + assert (C : i = 0 \/ i = 1 \/ i = 2 \/ i = 3) by lia. intuition (subst; auto 10).
    + assert (C : i = 0 \/ i = 1) by lia. intuition (subst; auto 10).
    + assert (C : i = 0) by lia. subst. auto 10.
  - intros H. repeat (destruct H as [H|H]; [injection H as <- <-; cbn; lia|]). destruct H.
Qed.

(** * C33: sort on threads *)
Definition rel_of {T} (lt : T -> T -> bool) (mode : sort_mode) (l l' : list T) : Prop :=
  match mode with MERGE => srel lt l l' | _ => Permutation l' l end.
Lemma rel_of_perm {T} (lt : T -> T -> bool) mode l l' : rel_of lt mode l l' -> Permutation l' l.
Proof. destruct mode; cbn; auto. intros H; apply H. Qed.
Lemma rel_of_srel {T} (lt : T -> T -> bool) mode l l' : srel lt l l' -> rel_of lt mode l l'.
Proof. intros H. destruct mode; cbn; try apply H; exact H. Qed.
Lemma rel_of_trans {T} (lt : T -> T -> bool) mode a b c : rel_of lt mode a b -> rel_of lt mode b c -> rel_of lt mode a c.
Proof. destruct mode; cbn; intros H1 H2; try (eapply Permutation_trans; eassumption). eapply srel_trans; eassumption. Qed.
Lemma rel_of_app {T} (lt : T -> T -> bool) mode a a' b b' : rel_of lt mode a a' -> rel_of lt mode b b' -> rel_of lt mode (a ++ b) (a' ++ b').
Proof. destruct mode; cbn; intros H1 H2; try (now apply Permutation_app). now apply srel_app. Qed.

(** any sort the in-place modes offer, as a leaf *)
Lemma in_place_leaf {T} F (lt LE : T -> T -> bool) isnan mode n :
  strict_weak lt ->
  (forall l r, isnan r = false -> LE l r = negb (lt r l)) ->
  (forall x y, isnan x = true -> lt x y = false) ->
  (forall x y, isnan x = true -> isnan y = false -> lt y x = true) ->
  n < 2 ^ 63 -> 2 * n + 1 < Z.of_nat F ->
  forall start size ws (m : Z -> T) ok (Q : unit -> (Z -> T) -> Prop),
    0 <= size <= n -> disjoint start size ws (size / 2) ->
    (forall x, start <= x < start + size -> ok x = true) -> (forall x, ws <= x < ws + size / 2 -> ok x = true) ->
    (forall x, start <= x < start + size -> (fun _ => True) (m x)) ->
    (forall m', rel_of lt mode (seg m start (start + size)) (seg m' start (start + size)) -> sorted_seg lt m' start (start + size) ->
       same_out2 m m' start (start + size) ws (ws + size / 2) -> Q tt m') ->
    wp ok (sort_in_place F (fun x y => Some (lt x y)) LE isnan mode start size ws) Q m.
Proof.
  intros SW N1 N2 N3 Hn HF start size ws m ok Q Hs Hd Ho1 Ho2 HP HQ. destruct mode; cbn [sort_in_place].
  - apply (quicksort_ok F _ lt (fun _ => True)); auto; try lia.
    intros m' (H1 & H2 & H3). apply HQ; [exact H1|exact H2|]. intros x Hx _. now apply H3.
  - apply (heapsort_ok F _ lt (fun _ => True)); auto; try lia.
    intros m' (H1 & H2 & H3). apply HQ; [exact H1|exact H2|]. intros x Hx _. now apply H3.
  - unfold mergesort_. assert (E : start + size - start = size) by lia.
    apply (proj1 (mergesort_both F (fun x y => Some (lt x y)) lt (fun _ => True) (fun _ _ _ _ => eq_refl) SW ok LE isnan N1 N2 N3 F));
      rewrite ?E; auto; try lia.
    + unfold disjoint in Hd. lia.
    + intros m' (H1 & H2 & H3). apply HQ; [exact H1|exact H2|exact H3].
Qed.

(** the shape common to the theorems: a threaded in-place or copying sort of n >= 64 items (the code threads from 65536 on) *)
Theorem C33_par_sort {T} (lt LE : T -> T -> bool) isnan :
  strict_weak lt ->
  (forall l r, isnan r = false -> LE l r = negb (lt r l)) ->
  (forall x y, isnan x = true -> lt x y = false) ->
  (forall x y, isnan x = true -> isnan y = false -> lt y x = true) ->
  forall mode F src dst lw pw n wakeup zz (m : Z -> T) sched,
  64 <= n < 2 ^ 63 -> 2 * n + 1 < Z.of_nat F -> 0 <= wakeup -> layout src dst lw pw n ->
  let s := par_sort F (fun x y => Some (lt x y)) LE isnan mode src dst lw pw n wakeup zz m sched in
  returned s ->
  Permutation (items (pm s) dst (dst + n)) (items m src (src + n)) /\
  ascending lt (pm s) dst n /\
  (forall x, ~ (dst <= x < dst + n) -> ~ (pw <= x < pw + 8 * AllocChunk n) -> ~ (lw <= x < lw + 8 * AllocChunk n) -> pm s x = m x) /\
  Permutation (plog s) all_merges.
Proof.
  intros SW N1 N2 N3 mode F src dst lw pw n wakeup zz m sched Hn HF Hw HL s Hret.
  destruct (par_result F (fun x y => Some (lt x y)) lt (fun _ => True) (fun _ _ _ _ => eq_refl) SW
     (rel_of lt mode) (rel_of_perm lt mode) (rel_of_srel lt mode) (rel_of_trans lt mode) (rel_of_app lt mode)
     (sort_in_place F (fun x y => Some (lt x y)) LE isnan mode) src dst lw pw n wakeup zz m Hw ltac:(lia) ltac:(lia) HL (fun _ _ => I)
     (in_place_leaf F lt LE isnan mode n SW N1 N2 N3 ltac:(lia) HF) sched 0 Hret) as (H1 & H2 & H3 & H4 & H5).
  split; [exact (rel_of_perm _ _ _ _ H1)|]. split; [intros i j Hi Hj; now apply H2|]. split; [exact H3|]. now apply log_merges.
Qed.

(** integers: every schedule gives the one sorted arrangement of the input - what one thread gives *)
Lemma sorted_unique : forall l l' : list Z, StronglySorted Z.le l -> StronglySorted Z.le l' -> Permutation l l' -> l = l'.
Proof.
  induction l as [|x l IH]; intros l' H1 H2 Hp.
  - apply Permutation_nil in Hp. now subst.
  - destruct l' as [|y l']; [apply Permutation_sym, Permutation_nil in Hp; discriminate|].
    inversion H1 as [|? ? S1 F1]; inversion H2 as [|? ? S2 F2]; subst.
    assert (E : x = y).
    { assert (X : In x (y :: l')) by (eapply Permutation_in; [exact Hp|now left]).
      assert (Y : In y (x :: l)) by (eapply Permutation_in; [apply Permutation_sym; exact Hp|now left]).
      destruct X as [X|X]; [congruence|]. destruct Y as [Y|Y]; [congruence|].
      rewrite Forall_forall in F1, F2. specialize (F1 _ Y). specialize (F2 _ X). lia. }
    subst y. f_equal. apply IH; auto. now apply Permutation_cons_inv with x.
Qed.
Lemma ssorted_items (m : Z -> Z) a b : (forall i j, a <= i <= j -> j < b -> m i <= m j) -> StronglySorted Z.le (items m a b).
Proof.
  intros H. unfold items, zrange. assert (G : forall k c, a <= c -> c + Z.of_nat k <= b -> StronglySorted Z.le (map m (zseq c k))).
  { induction k as [|k IH]; intros c Hc Hb; cbn; constructor.
    - apply IH; lia.
    - apply Forall_forall. intros y Hy. apply in_map_iff in Hy. destruct Hy as (z & <- & Hz). apply zseq_In in Hz. apply H; lia. }
  destruct (Z_le_dec a b); [apply G; lia|]. replace (Z.to_nat (b - a)) with 0%nat by lia. constructor.
Qed.

Theorem C33_par_sort_int_same_as_one_thread mode mode1 F src dst lw pw n wakeup zz (m : Z -> Z) sched :
  64 <= n < 2 ^ 63 -> 2 * n + 1 < Z.of_nat F -> 0 <= wakeup -> layout src dst lw pw n ->
  let s := par_sort F LT_int Z.leb (fun _ => false) mode src dst lw pw n wakeup zz m sched in
  returned s ->
  forall ws1 m1, apart src n ws1 ->
  exec (allowed (is_merge mode1) src n ws1) (sort_in_place F LT_int Z.leb (fun _ => false) mode1 src n ws1) m = Finished tt m1 ->
  items (pm s) dst (dst + n) = items m1 src (src + n).
Proof.
  intros Hn HF Hw HL s Hret ws1 m1 Hap He.
  destruct (C33_par_sort Z.ltb Z.leb (fun _ => false) sw_int ltac:(intros; lia) ltac:(intros; lia) ltac:(intros; lia)
     mode F src dst lw pw n wakeup zz m sched Hn HF Hw HL Hret) as (H1 & H2 & _).
  destruct (C28_sort_in_place mode1 F src n ws1 m ltac:(lia) HF Hap) as (m2 & (G1 & G2 & _) & G3).
  rewrite He in G1. injection G1 as <-.
  apply sorted_unique.
  - apply ssorted_items. intros i j Hi Hj. destruct (Z.eq_dec i j) as [->|]; [lia|].
    specialize (H2 i j ltac:(lia) Hj). cbn in H2. apply Z.ltb_ge in H2. exact H2.
  - apply ssorted_items. intros i j Hi Hj. apply G3; lia.
  - eapply Permutation_trans; [exact H1|]. now apply Permutation_sym.
Qed.

(** no two threads are ever about to touch the same item (array, source or workspace), and nothing goes out of bounds *)
Theorem C33_no_conflict {T} (lt LE : T -> T -> bool) isnan :
  strict_weak lt ->
  (forall l r, isnan r = false -> LE l r = negb (lt r l)) ->
  (forall x y, isnan x = true -> lt x y = false) ->
  (forall x y, isnan x = true -> isnan y = false -> lt y x = true) ->
  forall mode F src dst lw pw n wakeup zz (m : Z -> T) sched,
  64 <= n < 2 ^ 63 -> 2 * n + 1 < Z.of_nat F -> 0 <= wakeup -> layout src dst lw pw n ->
  let s := par_sort F (fun x y => Some (lt x y)) LE isnan mode src dst lw pw n wakeup zz m sched in
  forall c c', in_callback s c -> pp s c <> TBad /\
    (c' <> c -> in_callback s c' -> forall x, next_addr (pp s c) = Some x -> next_addr (pp s c') <> Some x).
Proof.
  intros SW N1 N2 N3 mode F src dst lw pw n wakeup zz m sched Hn HF Hw HL s c c'.
  exact (par_safe F (fun x y => Some (lt x y)) lt (fun _ => True) (fun _ _ _ _ => eq_refl) SW
     (rel_of lt mode) (rel_of_perm lt mode) (rel_of_srel lt mode) (rel_of_trans lt mode) (rel_of_app lt mode)
     (sort_in_place F (fun x y => Some (lt x y)) LE isnan mode) src dst lw pw n wakeup zz m Hw ltac:(lia) ltac:(lia) HL (fun _ _ => I)
     (in_place_leaf F lt LE isnan mode n SW N1 N2 N3 ltac:(lia) HF) sched c c').
Qed.

Lemma nan_last_pair {T} (val : T -> spec_float) (x y : T) : lt_float val y x = false ->
  (val x = S754_nan /\ val y = S754_nan) \/ (val x <> S754_nan /\ (val y = S754_nan \/ SFleb (val x) (val y) = true)).
Proof.
  intros H. destruct (nan_dec (val y)) as [Ey|Ey].
  - destruct (nan_dec (val x)) as [Ex|Ex]; [left; auto|right; auto].
  - right. destruct (nan_dec (val x)) as [Ex|Ex].
    + rewrite float_N3 in H; [discriminate|now apply nan_float_true|now apply nan_float_false].
    + split; [exact Ex|right]. rewrite SFleb_fkey by assumption. rewrite <- lt_float_key. now rewrite H.
Qed.

(** floats: the numbers in order, then the NaNs *)
Theorem C33_par_sort_float {T} (val : T -> spec_float) mode F src dst lw pw n wakeup zz (m : Z -> T) sched :
  64 <= n < 2 ^ 63 -> 2 * n + 1 < Z.of_nat F -> 0 <= wakeup -> layout src dst lw pw n ->
  let s := par_sort F (LT_float val) (LE_float val) (nan_float val) mode src dst lw pw n wakeup zz m sched in
  returned s ->
  Permutation (items (pm s) dst (dst + n)) (items m src (src + n)) /\
  forall i j, dst <= i < j -> j < dst + n ->
    (val (pm s i) = S754_nan /\ val (pm s j) = S754_nan) \/
    (val (pm s i) <> S754_nan /\ (val (pm s j) = S754_nan \/ SFleb (val (pm s i)) (val (pm s j)) = true)).
Proof.
  intros Hn HF Hw HL s Hret.
  destruct (C33_par_sort (lt_float val) (LE_float val) (nan_float val) (sw_float val) (float_N1 val) (float_N2 val) (float_N3 val)
     mode F src dst lw pw n wakeup zz m sched Hn HF Hw HL Hret) as (H1 & H2 & _).
  split; [exact H1|]. intros i j Hi Hj. exact (nan_last_pair val _ _ (H2 i j Hi Hj)).
Qed.

(** the call never gets stuck: from every point of every run with at least one worker woken, some continuation returns *)
Theorem C33_can_return {T} (lt LE : T -> T -> bool) isnan :
  strict_weak lt ->
  (forall l r, isnan r = false -> LE l r = negb (lt r l)) ->
  (forall x y, isnan x = true -> lt x y = false) ->
  (forall x y, isnan x = true -> isnan y = false -> lt y x = true) ->
  forall mode F src dst lw pw n wakeup zz (m : Z -> T) sched,
  64 <= n < 2 ^ 63 -> 2 * n + 1 < Z.of_nat F -> 1 <= wakeup -> layout src dst lw pw n ->
  exists sched', returned (par_sort F (fun x y => Some (lt x y)) LE isnan mode src dst lw pw n wakeup zz m (sched ++ sched')).
Proof.
  intros SW N1 N2 N3 mode F src dst lw pw n wakeup zz m sched Hn HF Hw HL.
  exact (par_can_return F (fun x y => Some (lt x y)) lt (fun _ => True) (fun _ _ _ _ => eq_refl) SW
     (rel_of lt mode) (rel_of_perm lt mode) (rel_of_srel lt mode) (rel_of_trans lt mode) (rel_of_app lt mode)
     (sort_in_place F (fun x y => Some (lt x y)) LE isnan mode) src dst lw pw n wakeup zz m ltac:(lia) ltac:(lia) ltac:(lia) HL (fun _ _ => I)
     (in_place_leaf F lt LE isnan mode n SW N1 N2 N3 ltac:(lia) HF) Hw sched).
Qed.

(** a merge is begun only when both halves of its range are finished: each holds, in order, a permutation of its part of the input *)
Theorem C33_merge_after_halves {T} (lt LE : T -> T -> bool) isnan :
  strict_weak lt ->
  (forall l r, isnan r = false -> LE l r = negb (lt r l)) ->
  (forall x y, isnan x = true -> lt x y = false) ->
  (forall x y, isnan x = true -> isnan y = false -> lt y x = true) ->
  forall mode F src dst lw pw n wakeup zz (m : Z -> T) sched c,
  64 <= n < 2 ^ 63 -> 2 * n + 1 < Z.of_nat F -> 0 <= wakeup -> layout src dst lw pw n ->
  let s := par_sort F (fun x y => Some (lt x y)) LE isnan mode src dst lw pw n wakeup zz m sched in
  let s' := par_sort F (fun x y => Some (lt x y)) LE isnan mode src dst lw pw n wakeup zz m (sched ++ [c]) in
  forall l i, plog s' = plog s ++ [(S l, i)] ->
  forall h, h = 2 * i \/ h = 2 * i + 1 ->
    let a := EndPositions n (h * 2 ^ Z.of_nat l) in let b := EndPositions n ((h + 1) * 2 ^ Z.of_nat l) in
    Permutation (items (pm s) (dst + a) (dst + b)) (items m (src + a) (src + b)) /\ ascending lt (pm s) (dst + a) (b - a).
Proof.
  intros SW N1 N2 N3 mode F src dst lw pw n wakeup zz m sched c Hn HF Hw HL s s' l i Hlog h Hh a b.
  destruct (par_merge_after_halves F (fun x y => Some (lt x y)) lt (fun _ => True) (fun _ _ _ _ => eq_refl) SW
     (rel_of lt mode) (rel_of_perm lt mode) (rel_of_srel lt mode) (rel_of_trans lt mode) (rel_of_app lt mode)
     (sort_in_place F (fun x y => Some (lt x y)) LE isnan mode) src dst lw pw n wakeup zz m Hw ltac:(lia) ltac:(lia) HL (fun _ _ => I)
     (in_place_leaf F lt LE isnan mode n SW N1 N2 N3 ltac:(lia) HF) sched c l i Hlog) as [A B].
  change (prun _ _ 3 _ sched) with s in A, B. unfold npost, lo_, hi_ in A, B.
  assert (X : rel_of lt mode (seg m (src + a) (src + b)) (seg (pm s) (dst + a) (dst + b)) /\ sorted_seg lt (pm s) (dst + a) (dst + b)).
  { unfold a, b. destruct Hh as [-> | ->]; [exact (conj (proj1 A) (proj1 (proj2 A)))|exact (conj (proj1 B) (proj1 (proj2 B)))]. }
  destruct X as [X1 X2]. split; [exact (rel_of_perm _ _ _ _ X1)|].
  intros x y Hx Hy. apply X2; lia.
Qed.

(** * a concrete run: 64 integers, three workers taking turns, each making two steps before a store of each is committed *)
Definition turns (k : nat) : list Z := flat_map (fun _ => [2; 4; 6; 2; 4; 6; 3; 5; 7; 3; 5; 7]) (seq 0 k) ++ repeat 0 5.
Example layout_case : layout 0 0 1000 100 64.
Proof. constructor; unfold disjoint, AllocChunk, NumCores; cbn; lia. Qed.
Example par_sort_case :
  let s := par_sort 140 LT_int Z.leb (fun _ => false) MERGE 0 0 1000 100 64 3 false (fun x => (x * 37) mod 64) (turns 900) in
  returned s /\ items (pm s) 0 64 = zrange 0 64 /\ length (plog s) = 7%nat.
Proof. vm_compute. repeat split. Qed.

Print Assumptions C33_par_sort.
Print Assumptions C33_par_sort_int_same_as_one_thread.
Print Assumptions C33_par_sort_float.
Print Assumptions C33_no_conflict.
Print Assumptions C33_can_return.
Print Assumptions C33_merge_after_halves.
