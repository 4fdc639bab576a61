(** Sort_Props.v - C28..C32, C35, C36 for one thread. *)
From Coq Require Import SpecFloat Sorted.
From Verif Require Import Base Sort_Model SortCmp_Model Sort_Base_Proofs Sort_Insert_Proofs SortCmp_Proofs
  Sort_Heap_Proofs Sort_Quick_Proofs Sort_Merge_Base_Proofs Sort_Merge_Proofs Sort_MergeNum_Proofs.

(** * Specification *)
(** the items at lo..hi-1, as a list *)
Definition items {T} (m : Z -> T) (lo hi : Z) : list T := map m (zrange lo hi).
(** the addresses a sort of [start, start+n) may touch: the array, and for merge sorts the n/2 items of workspace *)
Definition allowed (ws : bool) (start n pw x : Z) : bool :=
  inr_ start (start + n) x || (ws && inr_ pw (pw + n / 2) x).
(** the run ends normally, having touched only allowed addresses; the array is a permutation of what it was and
    nothing outside array and workspace changed *)
Definition permutes {T} (ws : bool) (p : prog T unit) (m m' : Z -> T) (start n pw : Z) : Prop :=
  exec (allowed ws start n pw) p m = Finished tt m' /\
  Permutation (items m' start (start + n)) (items m start (start + n)) /\
  (forall x, allowed ws start n pw x = false -> m' x = m x).
Definition ascending {T} (lt : T -> T -> bool) (m' : Z -> T) (start n : Z) : Prop :=
  forall i j, start <= i < j -> j < start + n -> lt (m' j) (m' i) = false.
Definition is_merge (mode : sort_mode) : bool := match mode with MERGE => true | _ => false end.
Definition apart (start n pw : Z) : Prop := pw + n / 2 <= start \/ start + n <= pw.

Lemma allowed_arr ws start n pw x : start <= x < start + n -> allowed ws start n pw x = true.
Proof. intros H. unfold allowed, inr_. lia. Qed.
Lemma allowed_pw start n pw x : pw <= x < pw + n / 2 -> allowed true start n pw x = true.
Proof. intros H. unfold allowed, inr_. lia. Qed.
Lemma not_allowed ws start n pw x : allowed ws start n pw x = false ->
  ~ (start <= x < start + n) /\ (ws = true -> ~ (pw <= x < pw + n / 2)).
Proof. unfold allowed, inr_. intros H. split; [lia|]. intros ->. cbn in H. lia. Qed.

(** * C28, C30: in-place sorts *)
Theorem sort_in_place_generic {T} (lt LE : T -> T -> bool) isnan :
  strict_weak lt ->
  (forall l r, isnan r = false -> LE l r = negb (lt r l)) ->
  (forall x y, isnan x = true -> lt x y = false) ->
  (forall x y, isnan x = true -> isnan y = false -> lt y x = true) ->
  forall mode F start n pw (m : Z -> T), 0 <= n < 2 ^ 63 -> 2 * n + 1 < Z.of_nat F -> apart start n pw ->
  exists m', permutes (is_merge mode) (sort_in_place F (fun x y => Some (lt x y)) LE isnan mode start n pw) m m' start n pw /\
    ascending lt m' start n.
Proof.
  intros SW N1 N2 N3 mode F start n pw m Hn HF Hap.
  set (ok := allowed (is_merge mode) start n pw).
  assert (Hw : wp ok (sort_in_place F (fun x y => Some (lt x y)) LE isnan mode start n pw)
     (fun _ m' => Permutation (seg m' start (start + n)) (seg m start (start + n)) /\ sorted_seg lt m' start (start + n) /\
        (forall x, ok x = false -> m' x = m x)) m).
  { destruct mode; cbn [sort_in_place].
    - apply (quicksort_ok F _ lt (fun _ => True)); auto.
      + intros x Hx. now apply allowed_arr.
      + intros m' (H1 & H2 & H3). split; [exact H1|split; [exact H2|]]. intros x Hx. apply H3. now apply not_allowed in Hx.
    - apply (heapsort_ok F _ lt (fun _ => True)); auto; try lia.
      + intros x Hx. now apply allowed_arr.
      + intros m' (H1 & H2 & H3). split; [exact H1|split; [exact H2|]]. intros x Hx. apply H3. now apply not_allowed in Hx.
    - unfold mergesort_. apply (proj1 (mergesort_both F (fun x y => Some (lt x y)) lt (fun _ => True) (fun _ _ _ _ => eq_refl) SW ok LE isnan N1 N2 N3 F)); auto; try lia.
      + replace (start + n - start) with n by lia. exact Hap.
      + intros x Hx. now apply allowed_arr.
      + replace (start + n - start) with n by lia. intros x Hx. now apply allowed_pw.
      + replace (start + n - start) with n by lia. intros m' (H1 & H2 & H3). split; [apply H1|split; [exact H2|]].
        intros x Hx. apply not_allowed in Hx. apply H3; [apply Hx|now apply Hx]. }
  apply wp_exec in Hw. destruct Hw as ([] & m' & He & H1 & H2 & H3).
  exists m'. split; [split; [exact He|split; [exact H1|exact H3]]|]. intros i j Hi Hj. now apply H2.
Qed.

(** C28 for the integer types and bool: values are integers, compared as integers *)
Theorem C28_sort_in_place mode F start n pw (m : Z -> Z) :
  0 <= n < 2 ^ 63 -> 2 * n + 1 < Z.of_nat F -> apart start n pw ->
  exists m', permutes (is_merge mode) (sort_in_place F LT_int Z.leb (fun _ => false) mode start n pw) m m' start n pw /\
    forall i j, start <= i <= j -> j < start + n -> m' i <= m' j.
Proof.
  intros Hn HF Hap.
  destruct (sort_in_place_generic Z.ltb Z.leb (fun _ => false) sw_int ltac:(intros; lia) ltac:(intros; lia) ltac:(intros; lia)
     mode F start n pw m Hn HF Hap) as (m' & H1 & H2).
  exists m'. split; [exact H1|]. intros i j Hi Hj. destruct (Z.eq_dec i j) as [->|]; [lia|].
  specialize (H2 i j ltac:(lia) Hj). lia.
Qed.

(** C28 for byte strings and unicode: every item has L units *)
Theorem C28_sort_string F L start n pw (m : Z -> list Z) :
  0 <= n < Z.of_nat F -> apart start n pw -> (forall x, start <= x < start + n -> length (m x) = L) ->
  exists m', permutes true (mergesort0string_ F (fun a b => Some (STRING_LT a b)) true F start (start + n) pw) m m' start n pw /\
    ascending STRING_LT m' start n.
Proof.
  intros Hn Hap HL.
  assert (Hw : wp (allowed true start n pw) (mergesort0string_ F (fun a b => Some (STRING_LT a b)) true F start (start + n) pw)
     (fun _ m' => Permutation (seg m' start (start + n)) (seg m start (start + n)) /\ sorted_seg lexl m' start (start + n) /\
        (forall x, allowed true start n pw x = false -> m' x = m x)) m).
  { eapply (mergesort0string_ok F _ lexl (fun a => length a = L)).
    - intros x y Hx Hy. f_equal. apply string_lexl. congruence.
    - exact sw_lexl.
    - lia.
    - lia.
    - lia.
    - replace (start + n - start) with n by lia. exact Hap.
    - intros x Hx. now apply allowed_arr.
    - replace (start + n - start) with n by lia. intros x Hx. now apply allowed_pw.
    - exact HL.
    - replace (start + n - start) with n by lia. intros m' (H1 & H2 & H3). split; [apply H1|split; [exact H2|]].
      intros x Hx. apply not_allowed in Hx. apply H3; [apply Hx|now apply Hx]. }
  apply wp_exec in Hw. destruct Hw as ([] & m' & He & H1 & H2 & H3).
  exists m'. split; [split; [exact He|split; [exact H1|exact H3]]|]. intros i j Hi Hj.
  pose proof (seg_perm_all (fun a => length a = L) m m' _ _ H1 HL) as HL'.
  rewrite string_lexl by (rewrite !HL' by lia; reflexivity). now apply H2.
Qed.

(** * C29: floats, NaNs last *)
Theorem C29_sort_float {T} (val : T -> spec_float) mode F start n pw (m : Z -> T) :
  0 <= n < 2 ^ 63 -> 2 * n + 1 < Z.of_nat F -> apart start n pw ->
  exists m', permutes (is_merge mode) (sort_in_place F (LT_float val) (LE_float val) (nan_float val) mode start n pw) m m' start n pw /\
    exists k, start <= k <= start + n /\
      (forall i, start <= i < k -> val (m' i) <> S754_nan) /\
      (forall i j, start <= i <= j -> j < k -> SFleb (val (m' i)) (val (m' j)) = true) /\
      (forall i, k <= i < start + n -> val (m' i) = S754_nan).
Proof.
  intros Hn HF Hap.
  destruct (sort_in_place_generic (lt_float val) (LE_float val) (nan_float val) (sw_float val) (float_N1 val) (float_N2 val) (float_N3 val)
     mode F start n pw m Hn HF Hap) as (m' & H1 & H2).
  exists m'. split; [exact H1|].
  (* the first NaN *)
  assert (G : forall k, 0 <= k <= n -> exists k', start <= k' <= start + k /\
     (forall i, start <= i < k' -> val (m' i) <> S754_nan) /\ (forall i, k' <= i < start + k -> val (m' i) = S754_nan)).
  { intros k Hk. assert (H0 : 0 <= k) by lia. revert Hk. pattern k. apply natlike_ind; [| |exact H0].
    - intros _. exists start. split; [lia|]. split; intros; lia.
    - intros j Hj IH Hk. destruct IH as (k' & K1 & K2 & K3); [lia|].
      destruct (nan_dec (val (m' (start + j)))) as [E|E].
      + exists k'. split; [lia|]. split; [exact K2|]. intros i Hi.
        destruct (Z.eq_dec i (start + j)) as [->|]; [exact E|apply K3; lia].
      + assert (k' = start + j) as ->.
        { destruct (Z.eq_dec k' (start + j)) as [|Hne]; [assumption|exfalso].
          specialize (K3 k' ltac:(lia)). specialize (H2 k' (start + j) ltac:(lia) ltac:(lia)).
          rewrite float_N3 in H2; [discriminate|now apply nan_float_true|now apply nan_float_false]. }
        exists (start + Z.succ j). split; [lia|]. split; [|intros; lia].
        intros i Hi. destruct (Z.eq_dec i (start + j)) as [->|]; [exact E|apply K2; lia]. }
  destruct (G n ltac:(lia)) as (k & K1 & K2 & K3). exists k. split; [exact K1|]. split; [exact K2|]. split; [|exact K3].
  intros i j Hi Hj. destruct (Z.eq_dec i j) as [->|Hne].
  - rewrite SFleb_fkey by (apply K2; lia). now rewrite lex3_irr.
  - rewrite SFleb_fkey by (apply K2; lia). rewrite <- lt_float_key. rewrite H2 by lia. reflexivity.
Qed.

(** float16 is sorted by bit pattern: two items, 1.0 and -1.0, come out in the wrong order.
    (bit patterns 0x3c00 = 1.0 and 0xbc00 = -1.0) *)
Theorem C29_half_refuted :
  exists (n : Z) (m : Z -> Z), 0 <= n < 2 ^ 63 /\
  forall mode F pw, 2 * n + 1 < Z.of_nat F -> apart 0 n pw ->
  exists m', exec (allowed (is_merge mode) 0 n pw) (sort_in_place F LT_half_used Z.leb (fun _ => false) mode 0 n pw) m = Finished tt m' /\
    SFltb (decode16 (m' 1)) (decode16 (m' 0)) = true.
Proof.
  exists 2, (fun x => if x =? 0 then 0xbc00 else 0x3c00). split; [lia|]. intros mode F pw HF Hap.
  destruct (C28_sort_in_place mode F 0 2 pw (fun x => if x =? 0 then 0xbc00 else 0x3c00) ltac:(lia) HF Hap) as (m' & (H1 & H2 & _) & H3).
  exists m'. split; [exact H1|]. specialize (H3 0 1 ltac:(lia) ltac:(lia)).
  assert (E : m' 0 = 0x3c00 /\ m' 1 = 0xbc00).
  { change (items m' 0 (0 + 2)) with [m' 0; m' 1] in H2.
    change (items _ 0 (0 + 2)) with [0xbc00; 0x3c00] in H2.
    apply Permutation_length_2_inv in H2. destruct H2 as [H2|H2]; injection H2 as Ea Eb; lia. }
  destruct E as [-> ->]. reflexivity.
Qed.

(** * C30 *)
Theorem C30_quicksort_stack_bounded {T} (lt : T -> T -> bool) F start n (m : Z -> T) :
  strict_weak lt -> 0 <= n < 2 ^ 63 -> 2 * n + 1 < Z.of_nat F ->
  exists m', exec (fun _ => true) (quicksort_ F (fun x y => Some (lt x y)) start n) m = Finished tt m'.
Proof.
  intros SW Hn HF.
  assert (Hw : wp (fun _ => true) (quicksort_ F (fun x y => Some (lt x y)) start n) (fun _ _ => True) m).
  { apply (quicksort_ok F _ lt (fun _ => True)); auto. }
  apply wp_exec in Hw. destruct Hw as ([] & m' & He & _). eauto.
Qed.

(** * C31, C32, C35: argsort and lexsort *)
(** a key column: integers, strings of L units, or floats; row r has the key (v r) *)
Inductive key := KInt (v : Z -> Z) | KStr (L : nat) (v : Z -> list Z) | KFlt (v : Z -> spec_float).
(** a comes strictly before b by this key: numerically / lexicographically by unsigned unit / numerically with NaN last *)
Definition key_lt (k : key) (a b : Z) : bool :=
  match k with
  | KInt v => v a <? v b
  | KStr _ v => STRING_LT (v a) (v b)
  | KFlt v => SFltb (v a) (v b) || (match v b with S754_nan => true | _ => false end && match v a with S754_nan => false | _ => true end)
  end.
(** the column lexsort builds for the key *)
Definition col_of (n : Z) (k : key) : column :=
  match k with
  | KInt v => {| is_string := false; lt_at := LT_at n v Z.ltb; rawlt_at := LT_at n v Z.ltb |}
  | KStr _ v => {| is_string := true; lt_at := LT_at n v STRING_LT; rawlt_at := LT_at n v STRING_LT |}
  | KFlt v => {| is_string := false; lt_at := LT_at n v (lt_float (fun x => x)); rawlt_at := LT_at n v (rawlt_float (fun x => x)) |}
  end.
(** all strings have the column's length *)
Definition key_wf (n : Z) (k : key) : Prop :=
  match k with KStr L v => forall r, 0 <= r < n -> length (v r) = L | _ => True end.
Definition key_nonan (n : Z) (k : key) : Prop :=
  match k with KFlt v => forall r, 0 <= r < n -> v r <> S754_nan | _ => True end.

(** row a is listed before row b when sorting by the keys in [keys], the last one the most significant, ties by row number *)
Fixpoint rowcmp (keys_last_first : list key) (a b : Z) : Prop :=
  match keys_last_first with
  | [] => a < b
  | k :: ks => key_lt k a b = true \/ (key_lt k a b = false /\ key_lt k b a = false /\ rowcmp ks a b)
  end.
Definition row_before (keys : list key) : Z -> Z -> Prop := rowcmp (rev keys).

(** a total comparison agreeing with key_lt on rows 0..n-1 *)
Definition klt (k : key) (a b : Z) : bool := match k with KStr _ v => lexl (v a) (v b) | _ => key_lt k a b end.
Lemma key_lt_float v a b : key_lt (KFlt v) a b = lt_float (fun x => x) (v a) (v b).
Proof. cbn. unfold lt_float. rewrite !SFeqb_self. f_equal. destruct (v a), (v b); reflexivity. Qed.
Lemma sw_klt k : strict_weak (klt k).
Proof.
  destruct k as [v|L v|v]; cbn [klt].
  - exact (sw_pull v Z.ltb sw_int).
  - exact (sw_pull v lexl sw_lexl).
  - destruct (sw_pull v _ (sw_float (fun x => x))) as [H1 H2].
    split; intros x y; [|intros z]; change (klt (KFlt v)) with (key_lt (KFlt v)); rewrite !key_lt_float; eauto.
Qed.
Lemma klt_key n k a b : key_wf n k -> 0 <= a < n -> 0 <= b < n -> klt k a b = key_lt k a b.
Proof.
  destruct k as [v|L v|v]; cbn; try reflexivity. intros H Ha Hb. symmetry. apply string_lexl. now rewrite !H.
Qed.
Definition row_in (n r : Z) : Prop := 0 <= r < n.
Lemma col_lt_ok n k : key_wf n k -> forall x y, row_in n x -> row_in n y -> lt_at (col_of n k) x y = Some (klt k x y).
Proof.
  intros Hk x y Hx Hy.
  assert (E : forall K (v : Z -> K) lt, LT_at n v lt x y = Some (lt (v x) (v y))).
  { intros K v lt. unfold LT_at, inr_. unfold row_in in *. now replace ((0 <=? x) && (x <? n) && ((0 <=? y) && (y <? n))) with true by lia. }
  rewrite (klt_key n) by assumption. destruct k as [v|L v|v]; cbn [col_of lt_at]; rewrite E; try reflexivity.
  now rewrite key_lt_float.
Qed.
Lemma col_raw_ok n k : key_wf n k -> key_nonan n k -> forall x y, row_in n x -> row_in n y -> rawlt_at (col_of n k) x y = Some (klt k x y).
Proof.
  intros Hk Hnan x y Hx Hy.
  assert (E : forall K (v : Z -> K) lt, LT_at n v lt x y = Some (lt (v x) (v y))).
  { intros K v lt. unfold LT_at, inr_. unfold row_in in *. now replace ((0 <=? x) && (x <? n) && ((0 <=? y) && (y <? n))) with true by lia. }
  rewrite (klt_key n) by assumption. destruct k as [v|L v|v]; cbn [col_of rawlt_at]; rewrite E; try reflexivity.
  rewrite key_lt_float. now rewrite raw_float by (apply Hnan; assumption).
Qed.

(** one column, merge mode *)
Lemma sort_index_merge n k F start pw m (Q : unit -> (Z -> Z) -> Prop) :
  key_wf n k -> key_nonan n k -> 0 <= n < Z.of_nat F -> apart start n pw ->
  (forall x, start <= x < start + n -> row_in n (m x)) ->
  (forall m', mpost (klt k) m start (start + n) pw (n / 2) m' -> Q tt m') ->
  wp (allowed true start n pw) (sort_index F MERGE (col_of n k) start n pw) Q m.
Proof.
  intros Hk Hnan Hn Hap HP HQ. unfold sort_index.
  assert (En : start + n - start = n) by lia.
  destruct (is_string (col_of n k)).
  - eapply (mergesort0string_ok F _ (klt k) (row_in n)); try assumption; try lia; rewrite ?En; try assumption.
    + now apply col_lt_ok.
    + apply sw_klt.
    + intros x Hx. now apply allowed_arr.
    + intros x Hx. now apply allowed_pw.
  - unfold amergesort_.
    apply (proj1 (amergesort_both F _ (klt k) (row_in n) (col_lt_ok n k Hk) (sw_klt k) (allowed true start n pw) _ (col_raw_ok n k Hk Hnan) F));
      try assumption; try lia; rewrite ?En; try assumption.
    + intros x Hx. now apply allowed_arr.
    + intros x Hx. now apply allowed_pw.
Qed.

Lemma fill_range_ok F start n pw ws m (Q : unit -> (Z -> Z) -> Prop) {B} (f : unit -> prog Z B) (R : B -> (Z -> Z) -> Prop) :
  0 <= n < Z.of_nat F ->
  (forall m', (forall i, 0 <= i < n -> m' (start + i) = i) -> same_out m m' start (start + n) -> wp (allowed ws start n pw) (f tt) R m') ->
  wp (allowed ws start n pw) (bind (fill_range F start n) f) R m.
Proof.
  intros Hn HQ. unfold fill_range.
  eapply wp_loop_b with (Inv := fun i m' => 0 <= i <= n /\ (forall j, 0 <= j < i -> m' (start + j) = j) /\ same_out m m' start (start + n))
    (meas := fun i => n - i)
    (P := fun _ m' => (forall j, 0 <= j < n -> m' (start + j) = j) /\ same_out m m' start (start + n)).
  - intros i m' (H1 & H2 & H3). destruct (i <? n) eqn:E.
    + apply wp_st; [apply allowed_arr; lia|]. apply wp_ret. split; [|lia]. split; [lia|]. split.
      * intros j Hj. destruct (Z.eq_dec j i) as [->|]; [apply zupd_eq|]. rewrite zupd_neq by lia. apply H2. lia.
      * intros x Hx. rewrite zupd_neq by lia. now apply H3.
    + apply wp_ret. split; [|exact H3]. intros j Hj. apply H2. lia.
  - intros i m' (H1 & _). lia.
  - split; [lia|]. split; [intros; lia|intros x _; reflexivity].
  - lia.
  - intros [] m' [H1 H2]. now apply HQ.
Qed.

Lemma same_out_allowed n start pw (m m' : Z -> Z) :
  same_out2 m m' start (start + n) pw (pw + n / 2) -> forall x, allowed true start n pw x = false -> m' x = m x.
Proof. intros H x Hx. apply not_allowed in Hx. apply H; [apply Hx|now apply Hx]. Qed.

Definition krow (ks : list key) : Z -> Z -> Prop := fun a b => (fix go ks a b := match ks with
  | [] => a < b
  | k :: ks => klt k a b = true \/ (klt k a b = false /\ klt k b a = false /\ go ks a b) end) ks a b.

Lemma sort_columns_ok n F start pw : forall keys done m,
  0 <= n < Z.of_nat F -> apart start n pw ->
  (forall k, In k keys -> key_wf n k /\ key_nonan n k) ->
  Permutation (seg m start (start + n)) (zrange 0 n) ->
  StronglySorted (krow done) (seg m start (start + n)) ->
  wp (allowed true start n pw) (sort_columns F MERGE (map (col_of n) keys) start n pw)
    (fun _ m' => Permutation (seg m' start (start + n)) (zrange 0 n) /\
        StronglySorted (krow (rev keys ++ done)) (seg m' start (start + n)) /\
        forall x, allowed true start n pw x = false -> m' x = m x) m.
Proof.
  induction keys as [|k keys IH]; intros done m Hn Hap Hk Hp Hs; cbn [map sort_columns].
  - apply wp_ret. split; [exact Hp|split; [exact Hs|reflexivity]].
  - apply wp_bind. destruct (Hk k (or_introl eq_refl)) as [K1 K2].
    apply sort_index_merge; try assumption.
    { intros x Hx. assert (HI : In (m x) (zrange 0 n)).
      { eapply Permutation_in; [exact Hp|]. apply seg_In. exists x. split; [lia|reflexivity]. }
      apply zrange_In in HI. exact HI. }
    intros m1 (A1 & A2 & A3).
    eapply wp_conseq.
    + apply (IH (k :: done)); try assumption.
      * intros k' Hk'. apply Hk. now right.
      * eapply Permutation_trans; [apply A1|exact Hp].
      * apply sorted_seg_iff in A2. exact (srel_refine (klt k) (krow done) (sw_klt k) _ _ Hs A1 A2).
    + intros [] m2 (B1 & B2 & B3). split; [exact B1|]. split.
      * cbn [rev]. rewrite <- app_assoc. exact B2.
      * intros x Hx. rewrite B3 by exact Hx. exact (same_out_allowed _ _ _ _ _ A3 x Hx).
Qed.

Lemma krow_rowcmp n ks a b : (forall k, In k ks -> key_wf n k) -> 0 <= a < n -> 0 <= b < n -> krow ks a b -> rowcmp ks a b.
Proof.
  intros Hk Ha Hb. induction ks as [|k ks IH]; cbn; [auto|]. intros H.
  rewrite <- !(klt_key n) by (try assumption; apply Hk; now left).
  destruct H as [H|(H1 & H2 & H3)]; [now left|right]. repeat (split; [assumption|]).
  apply IH; [|exact H3]. intros k' Hk'. apply Hk. now right.
Qed.

(** C35: lexsort with the default kind (stable merge): the output rows are each row number once, and every earlier row
    comes before every later one, the last key deciding first, ties in row order. Float keys must have no NaN. *)
Theorem C35_lexsort F keys start n pw (m : Z -> Z) :
  0 <= n < Z.of_nat F -> apart start n pw -> (forall k, In k keys -> key_wf n k /\ key_nonan n k) ->
  exists m', exec (allowed true start n pw) (lexsort F MERGE (map (col_of n) keys) start n pw) m = Finished tt m' /\
    Permutation (items m' start (start + n)) (zrange 0 n) /\
    (forall i j, start <= i < j -> j < start + n -> row_before keys (m' i) (m' j)) /\
    (forall x, allowed true start n pw x = false -> m' x = m x).
Proof.
  intros Hn Hap Hk.
  assert (Hw : wp (allowed true start n pw) (lexsort F MERGE (map (col_of n) keys) start n pw)
    (fun _ m' => Permutation (seg m' start (start + n)) (zrange 0 n) /\
        StronglySorted (krow (rev keys)) (seg m' start (start + n)) /\
        forall x, allowed true start n pw x = false -> m' x = m x) m).
  { unfold lexsort. apply fill_range_ok; [exact (fun _ _ => True)|exact Hn|]. intros m1 H1 H2.
    assert (E : seg m1 start (start + n) = zrange 0 n).
    { pose proof (seg_shift m1 (fun x => x) 0 n start) as G. replace (n - 0) with n in G by lia.
      rewrite G; [unfold seg; apply map_id|]. intros x Hx. replace (x - 0) with x by lia. now apply H1. }
    eapply wp_conseq.
    - apply (sort_columns_ok n F start pw keys [] m1); try assumption; rewrite E.
      + apply Permutation_refl.
      + cbn. apply zrange_ssorted.
    - intros [] m2 (B1 & B2 & B3). rewrite app_nil_r in B2. split; [exact B1|split; [exact B2|]].
      intros x Hx. rewrite B3 by exact Hx. apply H2. now apply not_allowed in Hx. }
  apply wp_exec in Hw. destruct Hw as ([] & m' & He & H1 & H2 & H3).
  exists m'. split; [exact He|]. split; [exact H1|]. split; [|exact H3].
  intros i j Hi Hj. unfold row_before.
  assert (Hrow : forall i, start <= i < start + n -> 0 <= m' i < n).
  { intros x Hx. apply zrange_In. eapply Permutation_in; [exact H1|]. apply seg_In. exists x. split; [lia|reflexivity]. }
  apply (krow_rowcmp n); [|apply Hrow; lia|apply Hrow; lia|exact (ssorted_seg _ _ _ _ H2 i j Hi Hj)].
  intros k Hin. apply Hk. now apply in_rev.
Qed.

(** C31: argsort of one key column, stable merge kind *)
Theorem C31_argsort_stable F k start n pw (m : Z -> Z) :
  0 <= n < Z.of_nat F -> apart start n pw -> key_wf n k -> key_nonan n k ->
  exists m', exec (allowed true start n pw) (argsort F MERGE (col_of n k) start n pw) m = Finished tt m' /\
    Permutation (items m' start (start + n)) (zrange 0 n) /\
    (forall i j, start <= i < j -> j < start + n ->
       key_lt k (m' j) (m' i) = false /\ (key_lt k (m' i) (m' j) = false -> m' i < m' j)).
Proof.
  intros Hn Hap Hk Hnan.
  destruct (C35_lexsort F [k] start n pw m Hn Hap) as (m' & H1 & H2 & H3 & _).
  { intros k' [<-|[]]. now split. }
  exists m'. split; [exact H1|]. split; [exact H2|]. intros i j Hi Hj. specialize (H3 i j Hi Hj). cbn in H3.
  destruct H3 as [H3|(H3 & H4 & H5)]; [|split; [exact H4|intros _; exact H5]].
  split; [|congruence].
  assert (Hrow : forall i, start <= i < start + n -> 0 <= m' i < n).
  { intros x Hx. apply zrange_In. eapply Permutation_in; [exact H2|]. unfold items. apply in_map, zrange_In. exact Hx. }
  rewrite <- (klt_key n) in * by (try assumption; apply Hrow; lia). now apply (sw_asym _ (sw_klt k)).
Qed.

(** quick and heap argsort (ties in any order), NaN keys included *)
Theorem C31_argsort_quick_heap F mode k start n pw (m : Z -> Z) :
  mode <> MERGE -> (match k with KStr _ _ => False | _ => True end) ->
  0 <= n < 2 ^ 63 -> 2 * n + 1 < Z.of_nat F ->
  exists m', exec (allowed false start n pw) (argsort F mode (col_of n k) start n pw) m = Finished tt m' /\
    Permutation (items m' start (start + n)) (zrange 0 n) /\
    (forall i j, start <= i < j -> j < start + n -> key_lt k (m' j) (m' i) = false).
Proof.
  intros Hmode Hk Hn HF.
  assert (Hwf : key_wf n k) by (destruct k; [exact I|contradiction|exact I]).
  assert (Hw : wp (allowed false start n pw) (argsort F mode (col_of n k) start n pw)
    (fun _ m' => Permutation (seg m' start (start + n)) (zrange 0 n) /\ sorted_seg (klt k) m' start (start + n)) m).
  { unfold argsort, lexsort. apply fill_range_ok; [exact (fun _ _ => True)|lia|]. intros m1 H1 H2.
    assert (E : seg m1 start (start + n) = zrange 0 n).
    { pose proof (seg_shift m1 (fun x => x) 0 n start) as G. replace (n - 0) with n in G by lia.
      rewrite G; [unfold seg; apply map_id|]. intros x Hx. replace (x - 0) with x by lia. now apply H1. }
    assert (HP : forall x, start <= x < start + n -> row_in n (m1 x)).
    { intros x Hx. replace x with (start + (x - start)) by lia. rewrite H1 by lia. unfold row_in. lia. }
    cbn [sort_columns]. unfold sort_index. replace (is_string (col_of n k)) with false by (now destruct k).
    destruct mode; [| |congruence]; apply wp_bind.
    - apply (quicksort_ok F _ (klt k) (row_in n)); auto.
      + now apply col_lt_ok.
      + apply sw_klt.
      + intros x Hx. now apply allowed_arr.
      + intros m' (A1 & A2 & A3). apply wp_ret. split; [rewrite <- E; exact A1|exact A2].
    - apply (heapsort_ok F _ (klt k) (row_in n)); auto; try lia.
      + now apply col_lt_ok.
      + apply sw_klt.
      + intros x Hx. now apply allowed_arr.
      + intros m' (A1 & A2 & A3). apply wp_ret. split; [rewrite <- E; exact A1|exact A2]. }
  apply wp_exec in Hw. destruct Hw as ([] & m' & He & H1 & H2).
  exists m'. split; [exact He|]. split; [exact H1|]. intros i j Hi Hj.
  assert (Hrow : forall i, start <= i < start + n -> 0 <= m' i < n).
  { intros x Hx. apply zrange_In. eapply Permutation_in; [exact H1|]. apply seg_In. exists x. split; [lia|reflexivity]. }
  rewrite <- (klt_key n) by (try assumption; apply Hrow; lia). now apply H2.
Qed.

(** * C32: NaN keys *)
(** 2^r as a double, and a NaN in row 7 *)
Definition nan_at_7 (r : Z) : spec_float := decode64 (if r =? 7 then 0x7ff8000000000000 else 0x3ff0000000000000 + r * 2 ^ 52).
Definition after {T} (o : outcome T unit) (P : (Z -> T) -> Prop) : Prop := match o with Finished _ m => P m | _ => False end.

(** argsort/lexsort with kind mergesort/stable on 16 doubles, NaN in row 7: the NaN row ends in place 7, before larger numbers *)
Theorem C32_argsort_nan_refuted :
  exists v n F pw, after (exec (allowed true 0 n pw) (argsort F MERGE (col_of n (KFlt v)) 0 n pw) (fun _ => 0))
    (fun m' => exists i j, 0 <= i < j /\ j < n /\ key_lt (KFlt v) (m' j) (m' i) = true /\
       v (m' i) = S754_nan /\ v (m' j) <> S754_nan).
Proof.
  exists nan_at_7, 16, 100%nat, 16.
  remember (exec (allowed true 0 16 16) (argsort 100 MERGE (col_of 16 (KFlt nan_at_7)) 0 16 16) (fun _ : Z => 0)) as o eqn:E.
  assert (H : match o with Finished _ m => (m 7 =? 7) && (m 8 =? 8) | _ => false end = true).
  { rewrite E. vm_compute. reflexivity. }
  clear E. destruct o as [a m'| |]; cbn; try discriminate. apply andb_true_iff in H. destruct H as [H1 H2].
  apply Z.eqb_eq in H1, H2. exists 7, 8. rewrite H1, H2. repeat split; try lia. discriminate.
Qed.

(** * C35: an unstable kind breaks lexsort *)
Theorem C35_lexsort_heap_refuted :
  exists k1 k2 n F pw, after (exec (allowed true 0 n pw) (lexsort F HEAP (map (col_of n) [k1; k2]) 0 n pw) (fun _ => 0))
    (fun m' => exists i j, 0 <= i < j /\ j < n /\ ~ row_before [k1; k2] (m' i) (m' j)).
Proof.
  exists (KInt (fun r => r)), (KInt (fun _ => 5)), 2, 50%nat, 2.
  remember (exec (allowed true 0 2 2) (lexsort 50 HEAP (map (col_of 2) [KInt (fun r => r); KInt (fun _ => 5)]) 0 2 2) (fun _ : Z => 0)) as o eqn:E.
  assert (H : match o with Finished _ m => (m 0 =? 1) && (m 1 =? 0) | _ => false end = true).
  { rewrite E. vm_compute. reflexivity. }
  clear E. destruct o as [a m'| |]; cbn; try discriminate. apply andb_true_iff in H. destruct H as [H1 H2].
  apply Z.eqb_eq in H1, H2. exists 0, 1. rewrite H1, H2. split; [lia|]. split; [lia|].
  cbn. intros [H|(_ & _ & [H|(_ & H & _)])]; discriminate.
Qed.

(** * C36: string orders *)
(** first differing unit decides *)
Definition lex_less (a b : list Z) : Prop :=
  exists k, (k < length a)%nat /\ (k < length b)%nat /\ firstn k a = firstn k b /\ nth k a 0 < nth k b 0.

Theorem C36_string_lt_is_lexicographic a b : length a = length b ->
  (STRING_LT a b = true <-> lex_less a b).
Proof.
  revert b; induction a as [|x a IH]; intros [|y b]; cbn; try congruence.
  - intros _. split; [discriminate|]. intros (k & Hk & _). inversion Hk.
  - intros HL. destruct (Z.eqb_spec x y) as [->|E]; cbn.
    + rewrite IH by congruence. split.
      * intros (k & H1 & H2 & H3 & H4). exists (S k). cbn. repeat split; try lia; now rewrite H3.
      * intros (k & H1 & H2 & H3 & H4). destruct k as [|k]; cbn in *; [lia|].
        exists k. repeat split; try lia; congruence.
    + rewrite Z.ltb_lt. split.
      * intros H. exists 0%nat. cbn. repeat split; try lia.
      * intros (k & H1 & H2 & H3 & H4). destruct k as [|k]; cbn in *; [exact H4|congruence].
Qed.

(** on items of one length it is a strict total order: irreflexive, transitive, and it separates different items *)
Theorem C36_string_lt_total a b c : length a = length b -> length b = length c ->
  STRING_LT a a = false /\
  (STRING_LT a b = true -> STRING_LT b c = true -> STRING_LT a c = true) /\
  (STRING_LT a b = false -> STRING_LT b a = false -> a = b).
Proof.
  intros H1 H2. split; [|split].
  - induction a as [|x a IH]; [reflexivity|]. cbn. rewrite Z.eqb_refl. cbn.
    clear - a. induction a as [|x a IH]; [reflexivity|]. cbn. now rewrite Z.eqb_refl.
  - rewrite !string_lexl by congruence. intros G1 G2.
    destruct (lexl a c) eqn:E; [reflexivity|].
    pose proof (sw_asym _ sw_lexl _ _ G2) as G3.
    pose proof (sw_ntrans _ sw_lexl a c b E G3). congruence.
  - clear H2. revert b H1. induction a as [|x a IH]; intros [|y b]; cbn; try congruence. intros HL.
    destruct (Z.eqb_spec x y) as [->|E]; cbn.
    + rewrite Z.eqb_refl. cbn. intros G1 G2. f_equal. apply IH; congruence.
    + destruct (Z.eqb_spec y x) as [E'|E']; [congruence|]. cbn. intros; lia.
Qed.

(** ** void items *)
Definition bytes (a : list Z) : Prop := Forall (fun x => 0 <= x < 256) a.

Lemma le_load_inj k : forall a b, bytes a -> bytes b -> (k <= length a)%nat -> (k <= length b)%nat ->
  le_load k a = le_load k b -> firstn k a = firstn k b.
Proof.
  induction k as [|k IH]; intros a b Ha Hb La Lb; [reflexivity|].
  destruct a as [|x a], b as [|y b]; cbn in *; try lia. inversion Ha; subst. inversion Hb; subst.
  assert (Hn : forall j l, bytes l -> 0 <= le_load j l).
  { induction j as [|j IHj]; intros [|z l] Hl; cbn; try lia. inversion Hl; subst. specialize (IHj l ltac:(assumption)). lia. }
  intros H. assert (x = y /\ le_load k a = le_load k b) as [-> E] by (pose proof (Hn k a ltac:(assumption)); pose proof (Hn k b ltac:(assumption)); lia).
  f_equal. apply IH; try assumption; lia.
Qed.

Definition sumn (l : list nat) : nat := fold_right Nat.add 0%nat l.
Lemma void_chunks_sum len : sumn (void_chunks len) = len.
Proof.
  unfold void_chunks. set (k := (Nat.pred len / 8)%nat).
  assert (E : forall j l, sumn (repeat 8%nat j ++ l) = (8 * j + sumn l)%nat).
  { induction j as [|j IH]; intros l; [reflexivity|]. change (sumn (repeat 8%nat (S j) ++ l)) with (8 + sumn (repeat 8%nat j ++ l))%nat. rewrite IH. lia. }
  rewrite E. pose proof (Nat.div_mod (Nat.pred len) 8 ltac:(lia)) as D. pose proof (Nat.mod_upper_bound (Nat.pred len) 8 ltac:(lia)) as B.
  fold k in D. set (r := (len - 8 * k)%nat). assert (r <= 8 /\ 8 * k + r = len)%nat as [Hr Hs] by (unfold r; lia).
  assert (sumn (tail_chunks r) = r); [|lia].
  do 9 (destruct r as [|r]; [reflexivity|]). lia.
Qed.

Fixpoint words (ch : list nat) (a : list Z) : list Z :=
  match ch with [] => [] | k :: ch => le_load k a :: words ch (skipn k a) end.
Lemma chunks_lt_words ch : forall a b, chunks_lt ch a b = STRING_LT (words ch a) (words ch b).
Proof. induction ch as [|k ch IH]; intros a b; [reflexivity|]. cbn. destruct (negb _); [reflexivity|apply IH]. Qed.
Lemma words_length ch : forall a, length (words ch a) = length ch.
Proof. induction ch as [|k ch IH]; intros a; [reflexivity|]. cbn. now rewrite IH. Qed.
Lemma bytes_skipn k a : bytes a -> bytes (skipn k a).
Proof. intros H. revert a H. induction k; intros a H; [exact H|]. destruct H; [constructor|]. cbn. now apply IHk. Qed.
Lemma words_inj ch : forall a b, bytes a -> bytes b -> length a = sumn ch -> length b = sumn ch ->
  words ch a = words ch b -> a = b.
Proof.
  induction ch as [|k ch IH]; intros a b Ha Hb La Lb.
  - destruct a, b; cbn in *; congruence.
  - change (sumn (k :: ch)) with (k + sumn ch)%nat in *. intros H. injection H as H1 H2.
    rewrite <- (firstn_skipn k a), <- (firstn_skipn k b). f_equal.
    + apply le_load_inj; try assumption; lia.
    + apply IH; try (now apply bytes_skipn); try assumption; rewrite skipn_length; lia.
Qed.

(** the void comparison is a strict total order on items of one length ... *)
Theorem C36_void_total len a b c : bytes a -> bytes b -> bytes c -> length a = len -> length b = len -> length c = len ->
  VOID_LT len a a = false /\
  (VOID_LT len a b = true -> VOID_LT len b c = true -> VOID_LT len a c = true) /\
  (VOID_LT len a b = false -> VOID_LT len b a = false -> a = b).
Proof.
  intros Ha Hb Hc La Lb Lc. unfold VOID_LT. rewrite !chunks_lt_words.
  destruct (C36_string_lt_total (words (void_chunks len) a) (words (void_chunks len) b) (words (void_chunks len) c)) as (H1 & H2 & H3);
    try (rewrite !words_length; reflexivity).
  split; [exact H1|]. split; [exact H2|]. intros G1 G2.
  apply (words_inj (void_chunks len)); try assumption; try (rewrite void_chunks_sum; assumption). auto.
Qed.
(** ... but not the lexicographic one: it loads 2, 4 or 8 bytes little-endian *)
Theorem C36_void_refuted : exists a b, bytes a /\ bytes b /\ length a = 2%nat /\ length b = 2%nat /\
  lex_less a b /\ VOID_LT 2 a b = false /\ VOID_LT 2 b a = true.
Proof.
  exists [0; 1], [1; 0]. repeat split; try (repeat constructor; lia).
  exists 0%nat. cbn. repeat split; lia.
Qed.

(** BINARY_LT answers exactly whether two items differ *)
Theorem C36_binary_lt_differs len a b : bytes a -> bytes b -> length a = len -> length b = len ->
  (BINARY_LT len a b = true <-> a <> b).
Proof.
  intros Ha Hb La Lb. unfold BINARY_LT.
  assert (G : forall ch a b, chunks_ne ch a b = false <-> words ch a = words ch b).
  { induction ch as [|k ch IH]; intros x y; cbn; [tauto|].
    destruct (Z.eqb_spec (le_load k x) (le_load k y)) as [E|E]; cbn.
    - rewrite IH, E. split; [congruence|intros H; now injection H].
    - split; [discriminate|intros H; injection H; congruence]. }
  split.
  - intros H ->. assert (chunks_ne (void_chunks len) b b = false) by now apply G. congruence.
  - intros H. destruct (chunks_ne (void_chunks len) a b) eqn:E; [reflexivity|]. exfalso. apply H.
    apply G in E. apply (words_inj (void_chunks len)); try assumption; rewrite void_chunks_sum; assumption.
Qed.

(** * concrete cases *)
Definition arr (l : list Z) : Z -> Z := fun x => nth (Z.to_nat x) l 0.
Example sort_case_quick :
  after (exec (allowed false 0 40 0) (sort_in_place 100 LT_int Z.leb (fun _ => false) QSORT 0 40 0) (fun x => (x * 17) mod 40))
    (fun m' => items m' 0 40 = zrange 0 40).
Proof. vm_compute. reflexivity. Qed.
Example sort_case_merge :
  after (exec (allowed true 0 40 40) (sort_in_place 100 LT_int Z.leb (fun _ => false) MERGE 0 40 40) (fun x => (x * 17) mod 40))
    (fun m' => items m' 0 40 = zrange 0 40).
Proof. vm_compute. reflexivity. Qed.
Example sort_case_float : (* 16 doubles, NaN in front: it ends last *)
  after (exec (allowed true 0 16 16) (sort_in_place 100 (LT_float decode64) (LE_float decode64) (nan_float decode64) MERGE 0 16 16)
     (fun x => if x =? 0 then 0x7ff8000000000000 else 0x3ff0000000000000 + (16 - x) * 2 ^ 52))
    (fun m' => decode64 (m' 15) = S754_nan /\ m' 0 = 0x3ff0000000000000 + 2 ^ 52).
Proof. vm_compute. split; reflexivity. Qed.
Example lexsort_case :
  after (exec (allowed true 0 4 4) (lexsort 50 MERGE (map (col_of 4) [KInt (arr [3;1;2;0]); KInt (arr [1;0;1;0])]) 0 4 4) (fun _ => 0))
    (fun m' => items m' 0 4 = [3; 1; 2; 0]).
Proof. vm_compute. reflexivity. Qed.

Print Assumptions C28_sort_in_place.
Print Assumptions C28_sort_string.
Print Assumptions C29_sort_float.
Print Assumptions C29_half_refuted.
Print Assumptions C30_quicksort_stack_bounded.
Print Assumptions C31_argsort_stable.
Print Assumptions C31_argsort_quick_heap.
Print Assumptions C32_argsort_nan_refuted.
Print Assumptions C35_lexsort.
Print Assumptions C35_lexsort_heap_refuted.
Print Assumptions C36_string_lt_is_lexicographic.
Print Assumptions C36_string_lt_total.
Print Assumptions C36_void_total.
Print Assumptions C36_void_refuted.
Print Assumptions C36_binary_lt_differs.
