(** SortHook_Props.v - C57: hooked np.sort. *)
From Verif Require Import Base Threads_Model Sort_Model SortCmp_Model ParSort_Model StrPar_Model SortHook_Model.
From Verif Require Import Sort_Base_Proofs Sort_Merge_Base_Proofs SortCmp_Proofs Sort_Props ParSort_Proofs ParSort_Props StrPar_Props.

Section Props.
  Context {T : Type} (lt LE : T -> T -> bool) (isnan : T -> bool).
  Hypothesis SW : strict_weak lt.
  Hypothesis N1 : forall l r, isnan r = false -> LE l r = negb (lt r l).
  Hypothesis N2 : forall x y, isnan x = true -> lt x y = false.
  Hypothesis N3 : forall x y, isnan x = true -> isnan y = false -> lt y x = true.
  Let LT := fun x y : T => Some (lt x y).

  (** buffer, array and workspace are three different blocks *)
  Definition blocks (arr buf n ws : Z) : Prop := disjoint arr n buf n /\ disjoint arr n ws (n / 2) /\ disjoint buf n ws (n / 2).

  Definition val (swp : T -> T) (sw : bool) (x : T) : T := if sw then swp x else x.
  Lemma copyswapn_wp F swp (sw : bool) dst ds src ss n (m : Z -> T) (Q : unit -> (Z -> T) -> Prop) :
    0 <= n < Z.of_nat F -> ds <> 0 -> (forall i j, 0 <= i < n -> 0 <= j < n -> dst + i * ds <> src + j * ss) ->
    (forall m', (forall i, 0 <= i < n -> m' (dst + i * ds) = val swp sw (m (src + i * ss))) -> (forall x, (forall i, 0 <= i < n -> x <> dst + i * ds) -> m' x = m x) -> Q tt m') ->
    wp (fun _ => true) (copyswapn F swp sw dst ds src ss n) Q m.
  Proof.
    intros Hn Hds Hd K. unfold copyswapn.
    eapply wp_loop with (Inv := fun k m' => 0 <= k <= n /\ (forall i, 0 <= i < k -> m' (dst + i * ds) = val swp sw (m (src + i * ss))) /\ (forall x, (forall i, 0 <= i < k -> x <> dst + i * ds) -> m' x = m x))
      (meas := fun k => n - k).
    - intros k m' (Hk & H1 & H2). destruct (k <? n) eqn:E.
      + apply wp_rd; [reflexivity|]. apply wp_st; [reflexivity|]. apply wp_ret. split; [|lia]. split; [lia|]. split.
        * intros i Hi. destruct (Z.eq_dec i k) as [->|Hne].
          -- rewrite zupd_eq, H2; [reflexivity|]. intros i Hi' C. apply (Hd i k); lia.
          -- rewrite zupd_neq by nia. apply H1. lia.
        * intros x Hx. rewrite zupd_neq by (apply Hx; lia). apply H2. intros i Hi. apply Hx. lia.
      + apply wp_ret. assert (k = n) as -> by lia. now apply K.
    - intros k m' (Hk & _). lia.
    - split; [lia|]. split; [intros; lia|reflexivity].
    - lia.
  Qed.

  (** native byte order, aligned: whatever lies behind the array's stride, the array is sorted in place and nothing else changes *)
  Theorem C57_native_partial mode F swp old sh arr buf g n ws (m : Z -> T) :
    hook_accepts mode sh = true -> 0 <= n < 2 ^ 63 -> 2 * n + 1 < Z.of_nat F -> disjoint arr n ws (n / 2) ->
    exists m', exec (fun _ => true) (numpy_sort F LT LE isnan mode swp old sh false false arr arr 1 buf g n ws) m = Finished tt m' /\
      Permutation (items m' arr (arr + n)) (items m arr (arr + n)) /\ ascending lt m' arr n /\
      (forall x, ~ (arr <= x < arr + n) -> ~ (ws <= x < ws + n / 2) -> m' x = m x).
  Proof.
    intros HA Hn HF Hd.
    assert (Hw : wp (fun _ => true) (numpy_sort F LT LE isnan mode swp old sh false false arr arr 1 buf g n ws)
      (fun _ m' => Permutation (items m' arr (arr + n)) (items m arr (arr + n)) /\ ascending lt m' arr n /\
         (forall x, ~ (arr <= x < arr + n) -> ~ (ws <= x < ws + n / 2) -> m' x = m x)) m).
    { unfold numpy_sort, AtopSort, hook_sort. cbn [orb]. change (negb (1 =? 1)) with false. cbv iota. rewrite HA, Z.eqb_refl. apply wp_bind. apply wp_ret.
      apply (in_place_leaf F lt LE isnan mode n SW N1 N2 N3); auto; try lia.
      intros m' R1 R2 R3. split; [exact (rel_of_perm _ _ _ _ R1)|]. split; [intros i j Hi Hj; apply R2; lia|exact R3]. }
    apply wp_exec in Hw. destruct Hw as ([] & m' & He & H). exists m'. split; [exact He|exact H].
  Qed.

  Lemma copy_strided_wp F dst src g n (m : Z -> T) (Q : unit -> (Z -> T) -> Prop) :
    0 <= n < Z.of_nat F -> (forall i, 0 <= i < n -> ~ (dst <= src + i * g < dst + n)) ->
    (forall m', (forall i, 0 <= i < n -> m' (dst + i) = m (src + i * g)) -> (forall x, ~ (dst <= x < dst + n) -> m' x = m x) -> Q tt m') ->
    wp (fun _ => true) (copy_strided F dst src g n) Q m.
  Proof.
    intros Hn Hd K. unfold copy_strided.
    eapply wp_loop with (Inv := fun k m' => 0 <= k <= n /\ (forall i, 0 <= i < k -> m' (dst + i) = m (src + i * g)) /\ (forall x, ~ (dst <= x < dst + n) -> m' x = m x))
      (meas := fun k => n - k).
    - intros k m' (Hk & H1 & H2). destruct (k <? n) eqn:E.
      + apply wp_rd; [reflexivity|]. apply wp_st; [reflexivity|]. apply wp_ret. split; [|lia]. split; [lia|]. split.
        * intros i Hi. destruct (Z.eq_dec i k) as [->|Hne].
          -- rewrite zupd_eq. apply H2. apply Hd. lia.
          -- rewrite zupd_neq by lia. apply H1. lia.
        * intros x Hx. rewrite zupd_neq by lia. now apply H2.
      + apply wp_ret. apply K; [intros i Hi; apply H1; lia|exact H2].
    - intros k m' (Hk & _). lia.
    - split; [lia|]. split; [intros; lia|reflexivity].
    - lia.
  Qed.

  (** the buffered path, for whatever value [g] lies behind the stride: the result is made of the items [arr + i*g] - NOT of NumPy's buffer -
      sorted as they are stored, and then, for a byte-swapped array, with their bytes reversed *)
  Lemma buffered mode F swp old sh sw mis arr buf g n ws (m : Z -> T) :
    hook_accepts mode sh = true -> sw || mis = true -> 0 < n < 2 ^ 63 -> 2 * n + 1 < Z.of_nat F -> blocks arr buf n ws -> (forall i, 0 <= i < n -> ~ (buf <= arr + i * g < buf + n)) ->
    exists m' mid, exec (fun _ => true) (numpy_sort F LT LE isnan mode swp old sh sw mis arr arr 1 buf g n ws) m = Finished tt m' /\
      items m' arr (arr + n) = map (fun x => if sw then swp x else x) (items mid 0 n) /\ Permutation (items mid 0 n) (viewed m arr g n) /\ ascending lt mid 0 n.
  Proof.
    intros HA Hsm Hn HF (D1 & D2 & D3) Hg.
    assert (Hw : wp (fun _ => true) (numpy_sort F LT LE isnan mode swp old sh sw mis arr arr 1 buf g n ws)
      (fun _ m' => exists mid, items m' arr (arr + n) = map (fun x => if sw then swp x else x) (items mid 0 n) /\ Permutation (items mid 0 n) (viewed m arr g n) /\ ascending lt mid 0 n) m).
    { unfold numpy_sort. rewrite Hsm. cbn [orb].
      apply wp_bind. apply copyswapn_wp; [lia|lia|unfold disjoint in *; lia|]. intros m1 A1 A2.
      apply wp_bind. unfold AtopSort. rewrite HA. unfold hook_sort. replace (arr =? buf) with false by (unfold disjoint in D1; lia).
      apply wp_bind. apply copy_strided_wp; [lia|exact Hg|]. intros m2 B1 B2.
      assert (E2 : seg m2 buf (buf + n) = viewed m arr g n).
      { unfold viewed. change (map (fun i => m (arr + i * g)) (zrange 0 n)) with (seg (fun i => m (arr + i * g)) 0 n).
        replace (buf + n) with (buf + (n - 0)) by lia. apply seg_shift. intros x Hx. rewrite Z.sub_0_r, B1 by lia. apply A2. intros i Hi C. apply (Hg x); lia. }
      apply (in_place_leaf F lt LE isnan mode n SW N1 N2 N3); auto; try lia.
      intros m3 R1 R2 R3. apply copyswapn_wp; [lia|lia|unfold disjoint in *; lia|]. intros m4 C1 C2.
      exists (fun i => m3 (buf + i)). split; [|split].
      - unfold items. rewrite map_map. change (seg m4 arr (arr + n) = seg (fun i => if sw then swp (m3 (buf + i)) else m3 (buf + i)) 0 n).
        replace (arr + n) with (arr + (n - 0)) by lia. apply seg_shift. intros x Hx. rewrite Z.sub_0_r. specialize (C1 x Hx). rewrite !Z.mul_1_r in C1. exact C1.
      - replace (items (fun i => m3 (buf + i)) 0 n) with (seg m3 buf (buf + n)); [rewrite <- E2; exact (rel_of_perm _ _ _ _ R1)|].
        replace (buf + n) with (buf + (n - 0)) by lia. apply seg_shift. intros x Hx. now rewrite Z.sub_0_r.
      - intros i j Hi Hj. apply R2; lia. }
    apply wp_exec in Hw. destruct Hw as ([] & m' & He & mid & H). exists m', mid. split; [exact He|exact H].
  Qed.

  (** NumPy's own sort function: n items at dest in ascending order, nothing else touched *)
  Definition sorts (old : Z -> Z -> prog T unit) : Prop := forall dest n (m : Z -> T) (Q : unit -> (Z -> T) -> Prop), 0 <= n ->
    (forall m', Permutation (items m' dest (dest + n)) (items m dest (dest + n)) -> ascending lt m' dest n -> (forall x, ~ (dest <= x < dest + n) -> m' x = m x) -> Q tt m') ->
    wp (fun _ => true) (old dest n) Q m.

  (** the hook leaves strided arrays and the rows of arrays of more dimensions to NumPy's own function, so they come out sorted, in native or swapped byte order
      ([val] is the value of a stored item), aligned or not; no other cell of the array changes *)
  Theorem C57_declined mode F swp old sh sw mis obj arr st buf g n ws (m : Z -> T) :
    sorts old -> (forall x, swp (swp x) = x) ->
    ndim sh <> 1 \/ stride sh <> typesize sh -> st <> 0 -> 0 <= n < Z.of_nat F ->
    (forall i j, 0 <= i < n -> 0 <= j < n -> arr + i * st <> buf + j) ->
    exists m', exec (fun _ => true) (numpy_sort F LT LE isnan mode swp old sh sw mis obj arr st buf g n ws) m = Finished tt m' /\
      Permutation (map (val swp sw) (viewed m' arr st n)) (map (val swp sw) (viewed m arr st n)) /\
      (forall i j, 0 <= i <= j -> j < n -> lt (val swp sw (m' (arr + j * st))) (val swp sw (m' (arr + i * st))) = false) /\
      (forall x, (forall i, 0 <= i < n -> x <> arr + i * st /\ x <> buf + i) -> m' x = m x).
  Proof.
    intros HO HI HD Hst Hn Hdj.
    assert (HA : hook_accepts mode sh = false) by (unfold hook_accepts; destruct (ndim sh =? 1) eqn:E1, (stride sh =? typesize sh) eqn:E2; rewrite ?andb_false_r; try reflexivity; lia).
    assert (VV : forall x, val swp sw (val swp sw x) = x) by (intros x; unfold val; destruct sw; [apply HI|reflexivity]).
    assert (IR : forall x, lt x x = false) by (intros x; apply (le_refl lt SW x)).
    assert (Hw : wp (fun _ => true) (numpy_sort F LT LE isnan mode swp old sh sw mis obj arr st buf g n ws)
      (fun _ m' => Permutation (map (val swp sw) (viewed m' arr st n)) (map (val swp sw) (viewed m arr st n)) /\
        (forall i j, 0 <= i <= j -> j < n -> lt (val swp sw (m' (arr + j * st))) (val swp sw (m' (arr + i * st))) = false) /\
        (forall x, (forall i, 0 <= i < n -> x <> arr + i * st /\ x <> buf + i) -> m' x = m x)) m).
    { unfold numpy_sort, AtopSort. rewrite HA. destruct (sw || mis || negb (st =? 1)) eqn:EB.
      - apply wp_bind. apply copyswapn_wp; [lia|lia|intros i j Hi Hj C; apply (Hdj j i); lia|]. intros m1 A1 A2.
        apply wp_bind. apply HO; [lia|]. intros m2 B1 B2 B3.
        apply copyswapn_wp; [lia|lia|intros i j Hi Hj C; apply (Hdj i j); lia|]. intros m3 C1 C2.
        assert (E3 : map (val swp sw) (viewed m3 arr st n) = items m2 buf (buf + n)).
        { unfold viewed. rewrite map_map. change (seg (fun i => val swp sw (m3 (arr + i * st))) 0 n = seg m2 buf (buf + n)). symmetry.
          replace (buf + n) with (buf + (n - 0)) by lia. apply seg_shift. intros x Hx. rewrite Z.sub_0_r, C1, VV by lia. f_equal. lia. }
        assert (E1 : map (val swp sw) (viewed m arr st n) = items m1 buf (buf + n)).
        { unfold viewed. rewrite map_map. change (seg (fun i => val swp sw (m (arr + i * st))) 0 n = seg m1 buf (buf + n)). symmetry.
          replace (buf + n) with (buf + (n - 0)) by lia. apply seg_shift. intros x Hx. rewrite Z.sub_0_r. replace (buf + x) with (buf + x * 1) by lia. apply A1. lia. }
        split; [rewrite E3, E1; exact B1|]. split.
        + intros i j Hi Hj. rewrite !C1, !VV, !Z.mul_1_r by lia. destruct (Z.eq_dec i j) as [->|]; [apply IR|]. apply B2; lia.
        + intros x Hx. rewrite C2 by (intros i Hi; apply Hx; lia). rewrite B3.
          * apply A2. intros i Hi. specialize (Hx i Hi). lia.
          * intros C. destruct (Hx (x - buf) ltac:(lia)). lia.
      - assert (sw = false /\ mis = false /\ st = 1) as (-> & -> & ->) by (destruct sw, mis; cbn in EB; try discriminate; destruct (Z.eqb_spec st 1); [auto|discriminate EB]).
        apply HO; [lia|]. intros m' B1 B2 B3. unfold val.
        assert (E : forall mm : Z -> T, map (fun x => x) (viewed mm arr 1 n) = items mm arr (arr + n)).
        { intros mm. rewrite map_id. unfold viewed. change (seg (fun i => mm (arr + i * 1)) 0 n = seg mm arr (arr + n)). symmetry.
          replace (arr + n) with (arr + (n - 0)) by lia. apply seg_shift. intros x Hx. f_equal. lia. }
        rewrite !E. split; [exact B1|]. split.
        + intros i j Hi Hj. rewrite !Z.mul_1_r. destruct (Z.eq_dec i j) as [->|]; [apply IR|]. apply B2; lia.
        + intros x Hx. apply B3. intros C. destruct (Hx (x - arr) ltac:(lia)). lia. }
    apply wp_exec in Hw. destruct Hw as ([] & m' & He & H). exists m'. split; [exact He|exact H].
  Qed.
End Props.
Print Assumptions C57_declined.
(** shapes the hook declines: a 2-D array of int32; every second int32 of an array *)
Example C57_declined_shapes : hook_accepts QSORT (mkShape 2 6 4 4 4) = false /\ hook_accepts QSORT (mkShape 1 6 8 4 4) = false /\ hook_accepts QSORT (mkShape 1 6 4 4 4) = true.
Proof. repeat split. Qed.

Lemma zseq_nth : forall k a i, (i < k)%nat -> nth_error (zseq a k) i = Some (a + Z.of_nat i).
Proof. induction k as [|k IH]; intros a [|i] H; cbn [zseq nth_error]; try lia; [f_equal; lia|]. rewrite IH by lia. f_equal. lia. Qed.

(** a misaligned array of native byte order is sorted if - and only by luck - the value behind its stride is its item size; the copy on threads
    (65536 items and more) does not use that value *)
Theorem C57_misaligned_partial mode F swp old sh arr buf n ws (m : Z -> Z) :
  hook_accepts mode sh = true -> 0 < n < 2 ^ 63 -> 2 * n + 1 < Z.of_nat F -> blocks arr buf n ws ->
  exists m', exec (fun _ => true) (numpy_sort F LT_int Z.leb (fun _ => false) mode swp old sh false true arr arr 1 buf 1 n ws) m = Finished tt m' /\
    Permutation (items m' arr (arr + n)) (items m arr (arr + n)) /\ forall i j, arr <= i <= j -> j < arr + n -> m' i <= m' j.
Proof.
  intros HA Hn HF HB. destruct (buffered Z.ltb Z.leb (fun _ => false) sw_int ltac:(intros; lia) ltac:(intros; lia) ltac:(intros; lia) mode F swp old sh false true arr buf 1 n ws m HA eq_refl Hn HF HB) as (m' & mid & E & E1 & P & A).
  { intros i Hi. destruct HB as (D & _). unfold disjoint in D. lia. }
  exists m'. split; [exact E|]. rewrite map_id in E1. split.
  - rewrite E1. replace (items m arr (arr + n)) with (viewed m arr 1 n); [exact P|]. unfold viewed. change (seg (fun i => m (arr + i * 1)) 0 n = seg m arr (arr + n)).
    symmetry. replace (arr + n) with (arr + (n - 0)) by lia. apply seg_shift. intros x Hx. f_equal. lia.
  - assert (G : forall i, 0 <= i < n -> m' (arr + i) = mid i).
    { intros i Hi. assert (X : nth_error (items m' arr (arr + n)) (Z.to_nat i) = nth_error (items mid 0 n) (Z.to_nat i)) by now rewrite E1.
      unfold items, zrange in X. rewrite !nth_error_map in X. rewrite !zseq_nth in X by lia. cbn in X. injection X as X. rewrite Z2Nat.id in X by lia. exact X. }
    intros i j Hi Hj. destruct (Z.eq_dec i j) as [->|]; [lia|]. replace i with (arr + (i - arr)) by lia. replace j with (arr + (j - arr)) by lia. rewrite !G by lia.
    specialize (A (i - arr) (j - arr) ltac:(lia) ltac:(lia)). lia.
Qed.

(** every byte-swapped array of any n > 0 items, even if that value is right: the result is a permutation of the items with their bytes reversed *)
Theorem C57_swapped_refuted mode F k old sh arr buf n ws (m : Z -> Z) :
  hook_accepts mode sh = true -> 0 < n < 2 ^ 63 -> 2 * n + 1 < Z.of_nat F -> blocks arr buf n ws ->
  exists m', exec (fun _ => true) (numpy_sort F LT_int Z.leb (fun _ => false) mode (bswap k) old sh true false arr arr 1 buf 1 n ws) m = Finished tt m' /\
    Permutation (items m' arr (arr + n)) (map (bswap k) (items m arr (arr + n))).
Proof.
  intros HA Hn HF HB. destruct (buffered Z.ltb Z.leb (fun _ => false) sw_int ltac:(intros; lia) ltac:(intros; lia) ltac:(intros; lia) mode F (bswap k) old sh true false arr buf 1 n ws m HA eq_refl Hn HF HB) as (m' & mid & E & E1 & P & A).
  { intros i Hi. destruct HB as (D & _). unfold disjoint in D. lia. }
  exists m'. split; [exact E|]. rewrite E1. change (map (fun x => bswap k x) (items mid 0 n)) with (map (bswap k) (items mid 0 n)). apply Permutation_map.
  replace (items m arr (arr + n)) with (viewed m arr 1 n); [exact P|]. unfold viewed. change (seg (fun i => m (arr + i * 1)) 0 n = seg m arr (arr + n)).
  symmetry. replace (arr + n) with (arr + (n - 0)) by lia. apply seg_shift. intros x Hx. f_equal. lia.
Qed.
Print Assumptions C57_swapped_refuted.
(** np.sort(np.array([256, 1], '>u4')): NumPy's answer is [1, 256]; the hooked sort gives [65536, 16777216] *)
Example C57_swapped_case : let m := fun x => if x =? 0 then bswap 4 256 else if x =? 1 then bswap 4 1 else 0 in
  blocks 0 10 2 20 /\ hook_accepts QSORT (mkShape 1 6 4 4 4) = true /\
  match exec (fun _ => true) (numpy_sort 20 LT_int Z.leb (fun _ => false) QSORT (bswap 4) (fun _ _ => Ret tt) (mkShape 1 6 4 4 4) true false 0 0 1 10 1 2 20) m with
  | Finished _ m' => map (bswap 4) (items m' 0 2) = [65536; 16777216]
  | _ => False end.
Proof. cbv zeta. split; [unfold blocks, disjoint; cbn; lia|]. split; [reflexivity|]. vm_compute. reflexivity. Qed.
(** a misaligned array whose memory holds 0 behind the stride: the result is the first item n times *)
Example C57_misaligned_case : let m := fun x => if x =? 0 then 7 else if x =? 1 then 5 else 0 in
  match exec (fun _ => true) (numpy_sort 20 LT_int Z.leb (fun _ => false) QSORT (bswap 4) (fun _ _ => Ret tt) (mkShape 1 6 4 4 4) false true 0 0 1 10 0 2 20) m with
  | Finished _ m' => items m' 0 2 = [7; 7]
  | _ => False end.
Proof. vm_compute. reflexivity. Qed.

(** on threads, aligned and native: the array sorted in place under every schedule *)
Theorem C57_native_threads_partial {T} (lt LE : T -> T -> bool) isnan :
  strict_weak lt ->
  (forall l r, isnan r = false -> LE l r = negb (lt r l)) ->
  (forall x y, isnan x = true -> lt x y = false) ->
  (forall x y, isnan x = true -> isnan y = false -> lt y x = true) ->
  forall mode F arr lw pw n wakeup zz (m : Z -> T) sched,
  64 <= n < 2 ^ 63 -> 2 * n + 1 < Z.of_nat F -> 0 <= wakeup -> layout arr arr lw pw n ->
  let s := par_sort F (fun x y => Some (lt x y)) LE isnan mode arr arr lw pw n wakeup zz m sched in
  returned s -> Permutation (items (pm s) arr (arr + n)) (items m arr (arr + n)) /\ ascending lt (pm s) arr n.
Proof.
  intros SW N1 N2 N3 mode F arr lw pw n wakeup zz m sched Hn HF Hw HL s Hret.
  destruct (C33_par_sort lt LE isnan SW N1 N2 N3 mode F arr arr lw pw n wakeup zz m sched Hn HF Hw HL Hret) as (H1 & H2 & _). now split.
Qed.
