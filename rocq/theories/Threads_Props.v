(** Threads_Props.v - property theorems C01-C05, C08, C09.
    Reading guide: [run u (start n T zz m) sched] is the state after the threads listed in [sched] have each
    made one atomic step, in that order, for a call on [n] elements with [T] workers woken;
    [pcs s 0 = Returned] says the caller's threaded call has returned; [log s] lists the element
    numbers in the order they were computed; [occ e l] counts [e] in [l]. *)
From Verif Require Import Base Threads_Model Threads_Proofs Threads_Live_Proofs Threads_Counter_Proofs.

(** ---------- C01 ---------- *)
Theorem C01_exactly_once :
  forall {V} (u : ufunc V) (n T : Z) (zz : bool) (m : Z -> V) (sched : list Z),
    0 <= n -> 0 <= T ->
    let s := run u (start n T zz m) sched in
    (* at every moment: no element computed twice, none outside the array *)
    (forall e, occ e (log s) <= (if (0 <=? e) && (e <? n) then 1 else 0)) /\
    (* when the call returns: every element computed exactly once *)
    (pcs s 0 = Returned -> forall e, occ e (log s) = if (0 <=? e) && (e <? n) then 1 else 0).
Proof.
  intros V u n T zz m sched Hn HT s.
  destruct (reach_inv u n T zz HT m sched) as (d & b & I). fold s in I. split.
  - intros e. destruct ((0 <=? e) && (e <? n)) eqn:E.
    + exact (inv_log_le1 n T zz s d b e I).
    + rewrite (I_log_out _ _ _ _ _ _ I); lia.
  - intros Hr e. exact (inv_returned_log n T zz s d b 0 e I Hr).
Qed.
Print Assumptions C01_exactly_once.

(** a schedule in which four threads really share 100000 elements and the call returns *)
Definition demo_sched (n T : Z) : list Z :=
  concat (repeat (zrange 0 (T + 1)) (Z.to_nat ((n + 16383) / 16384 * (16384 + 2 * T + 20) + 2 * T + 8)))
  ++ concat (repeat (zrange 1 (T + 1)) (Z.to_nat 16387)) ++ [0].

Lemma occ_concat_repeat c l k : occ c (concat (repeat l k)) = Z.of_nat k * occ c l.
Proof.
  induction k as [|k IH]; [reflexivity|]. cbn [repeat concat]. rewrite occ_app, IH. lia.
Qed.

Lemma occ_zrange c a b : a <= c < b -> occ c (zrange a b) = 1.
Proof.
  intros H. assert (0 < occ c (zrange a b)) by (apply occ_In, zrange_In; lia).
  pose proof (proj1 (NoDup_count_occ Z.eq_dec _) (zrange_NoDup a b) c). unfold occ in *. lia.
Qed.

Lemma demo_returns {V} (u : ufunc V) n T zz m : 0 <= n -> 0 <= T ->
  pcs (run u (start n T zz m) (demo_sched n T)) 0 = Returned.
Proof.
  intros Hn HT. unfold demo_sched. apply fair_returns; try assumption.
  - rewrite occ_concat_repeat, occ_zrange by lia.
    rewrite Z2Nat.id; unfold BL, K, CH, WORK_ITEM_CHUNK.
    + replace (n + (16384 - 1)) with (n + 16383) by lia. lia.
    + assert (0 <= (n + 16383) / 16384) by (apply Z.div_pos; lia). nia.
  - intros c Hc. rewrite occ_concat_repeat, occ_zrange by lia. rewrite CH_val. lia.
Qed.

Example C01_nonvacuous :
  let u := mkUfunc Z 0 0 0 8 8 8 (fun x y => x + y) in
  exists sched, pcs (run u (start 100000 3 true (fun a => a)) sched) 0 = Returned /\
                In 3 sched /\ BL 100000 = 7.
Proof.
  exists (demo_sched 100000 3). split; [apply demo_returns; lia|]. split; [|reflexivity].
  unfold demo_sched. apply in_or_app. left. apply in_concat. exists (zrange 0 4). split.
  - assert (Hk : 0 < (100000 + 16383) / 16384 * (16384 + 2 * 3 + 20) + 2 * 3 + 8) by reflexivity.
    destruct (Z.to_nat ((100000 + 16383) / 16384 * (16384 + 2 * 3 + 20) + 2 * 3 + 8)) eqn:E; [lia|].
    left. reflexivity.
  - apply zrange_In. lia.
Qed.

(** ---------- C02 ---------- *)
Theorem C02_return_is_barrier :
  forall {V} (u : ufunc V) (n T : Z) (zz : bool) (m : Z -> V) (sched : list Z),
    0 <= n -> 0 <= T ->
    let s := run u (start n T zz m) sched in
    pcs s 0 = Returned ->
    (* everything is written, no thread is inside a chunk, *)
    (forall e, 0 <= e < n -> occ e (log s) = 1) /\
    (forall c lb len k, pcs s c <> Bump lb len /\ pcs s c <> Work lb len k /\ pcs s c <> Finish lb) /\
    (* and whatever the workers do later, memory stays as it was at return *)
    (forall sched', mem (run u s sched') = mem s /\ log (run u s sched') = log s).
Proof.
  intros V u n T zz m sched Hn HT s Hr.
  destruct (reach_inv u n T zz HT m sched) as (d & b & I). fold s in I. split; [|split].
  - intros e He. rewrite (inv_returned_log n T zz s d b 0 e I Hr).
    destruct ((0 <=? e) && (e <? n)) eqn:E; lia.
  - pose proof (inv_returned_no_holder n T zz s d b 0 I Hr) as Hno.
    intros c lb len k. repeat split; intros H; apply (Hno c lb); rewrite H; reflexivity.
  - intros sched'. destruct (after_return_stable u n T zz HT m sched sched' Hr) as [H1 H2]. auto.
Qed.
Print Assumptions C02_return_is_barrier.

(** ---------- C03 ---------- *)
(** Bound on the caller's own steps: chunks * (chunk size + 2*workers + 20) + 2*workers + 8. *)
Definition caller_bound (n T : Z) : Z := ((n + 16383) / 16384) * (16384 + 2 * T + 20) + 2 * T + 8.

Lemma caller_bound_eq n T : caller_bound n T = BL n * K T + 2 * T + 8.
Proof.
  unfold caller_bound, BL, K, CH, WORK_ITEM_CHUNK. replace (n + (16384 - 1)) with (n + 16383) by lia. lia.
Qed.

Theorem C03_terminates :
  forall {V} (u : ufunc V) (n T : Z) (zz : bool) (m : Z -> V),
    0 <= n -> 0 <= T ->
    (* in every interleaving, after at most caller_bound of its own steps the caller only waits or has returned *)
    (forall sched, caller_bound n T <= occ 0 sched ->
        pcs (run u (start n T zz m) sched) 0 = Wait \/ pcs (run u (start n T zz m) sched) 0 = Returned) /\
    (* if after that each worker gets enough steps to finish the chunk it may hold, the call returns *)
    (forall s1 s2, caller_bound n T <= occ 0 s1 -> (forall c, 1 <= c <= T -> 16387 <= occ c s2) ->
        pcs (run u (start n T zz m) (s1 ++ s2 ++ [0])) 0 = Returned) /\
    (* with no worker ever scheduled, the caller does everything and returns *)
    (forall k, caller_bound n T <= Z.of_nat k ->
        pcs (run u (start n T zz m) (repeat 0 (S k))) 0 = Returned).
Proof.
  intros V u n T zz m Hn HT. split; [|split].
  - intros sched H. rewrite caller_bound_eq in H.
    apply (main_bounded u n T zz HT sched _ [] []); [apply inv_start; assumption|].
    rewrite measure_start by assumption. exact H.
  - intros s1 s2 H1 H2. rewrite caller_bound_eq in H1. apply fair_returns; assumption.
  - intros k Hk. rewrite caller_bound_eq in Hk. apply caller_alone; assumption.
Qed.
Print Assumptions C03_terminates.

Example C03_nonvacuous : caller_bound 100000 3 = 114884 /\ 100000 >= WORK_ITEM_BIG.
Proof. split; [reflexivity|unfold WORK_ITEM_BIG, WORK_ITEM_CHUNK; lia]. Qed.

(** ---------- C04 ---------- *)
(** pieces passed to the callback are (start, length) pairs *)
Theorem C04_chunks_tile :
  forall (n T : Z) (zz : bool) (sched : list Z),
    0 <= n -> 0 <= T ->
    let s := crun ChunkMode (cstart ChunkMode n T zz) sched in
    cpcs s 0 = CReturned ->
    (* each element lies in exactly one piece, elements outside the array in none *)
    (forall e, Z.of_nat (length (filter (fun p => (fst p <=? e) && (e <? fst p + snd p)) (calls s)))
               = if (0 <=? e) && (e <? n) then 1 else 0) /\
    (forall p, In p (calls s) -> 0 < snd p) /\
    (* all callback invocations have returned, and no further one happens *)
    Permutation (fins s) (calls s) /\
    (forall sched', calls (crun ChunkMode s sched') = calls s).
Proof.
  intros n T zz sched Hn HT s Hr.
  destruct (creach_inv ChunkMode n T zz HT sched) as (d & f & I). fold s in I.
  destruct (returned_calls ChunkMode n T Hn s d f 0 I Hr) as (H1 & H2 & H3).
  cbn [w0 tgt] in H1. replace (0 + BL n) with (BL n) in H1 by lia.
  split; [|split; [|split]].
  - intros e. rewrite H1. exact (chunk_pieces_cover n e Hn).
  - intros p. rewrite H1. intros Hp. apply in_map_iff in Hp. destruct Hp as (w & <- & Hw).
    apply zrange_In in Hw. simpl. apply (blen_pos n w Hw).
  - exact H2.
  - intros sched'. destruct (crun_inv ChunkMode n T sched' s d f I) as (d' & f' & I').
    destruct (returned_calls ChunkMode n T Hn _ d' f' 0 I' (crun_returned ChunkMode sched' s 0 Hr)) as (H1' & _).
    cbn [w0 tgt] in H1'. replace (0 + BL n) with (BL n) in H1' by lia. congruence.
Qed.
Print Assumptions C04_chunks_tile.

(** three threads, 50000 elements, 4 pieces: a schedule that returns *)
Example C04_nonvacuous :
  let s := crun ChunkMode (cstart ChunkMode 50000 2 false)
                ([0; 1; 1; 2; 2; 0; 2; 1; 2] ++ concat (repeat [0; 1; 2] 10)) in
  cpcs s 0 = CReturned /\ calls s = [(0, 16384); (16384, 16384); (32768, 16384); (49152, 848)].
Proof. vm_compute. repeat split. Qed.

(** ---------- C05 ---------- *)
Lemma zrange_shift1 n : map (fun x => x - 1) (zrange 1 (1 + n)) = zrange 0 n.
Proof.
  unfold zrange. replace (Z.to_nat (1 + n - 1)) with (Z.to_nat (n - 0)) by lia.
  generalize (Z.to_nat (n - 0)) as k. intros k. change 1 with (0 + 1) at 2. generalize 0 as a.
  induction k as [|k IH]; intros a; [reflexivity|]. simpl. f_equal; [lia|]. rewrite IH. reflexivity.
Qed.

Theorem C05_indices_exactly_once :
  forall (n T : Z) (zz : bool) (sched : list Z),
    0 <= n -> 0 <= T ->
    let s := crun IndexMode (cstart IndexMode n T zz) sched in
    cpcs s 0 = CReturned ->
    (* the callback ran once for each index 0..n-1, and for nothing else; *)
    Permutation (map fst (calls s)) (zrange 0 n) /\
    (* every invocation has returned, and no further one happens *)
    Permutation (fins s) (calls s) /\
    (forall sched', calls (crun IndexMode s sched') = calls s).
Proof.
  intros n T zz sched Hn HT s Hr.
  destruct (creach_inv IndexMode n T zz HT sched) as (d & f & I). fold s in I.
  destruct (returned_calls IndexMode n T Hn s d f 0 I Hr) as (H1 & H2 & H3).
  cbn [w0 tgt] in H1.
  split; [|split].
  - rewrite H1, map_map. simpl. rewrite zrange_shift1. reflexivity.
  - exact H2.
  - intros sched'. destruct (crun_inv IndexMode n T sched' s d f I) as (d' & f' & I').
    destruct (returned_calls IndexMode n T Hn _ d' f' 0 I' (crun_returned IndexMode sched' s 0 Hr)) as (H1' & _).
    cbn [w0 tgt] in H1'. congruence.
Qed.
Print Assumptions C05_indices_exactly_once.

(** six indices, two workers *)
Example C05_nonvacuous :
  let s := crun IndexMode (cstart IndexMode 6 2 false)
     ([1;1;2;2;2;2;2;0] ++ concat (repeat [0;2;0;2;2] 6)) in
  cpcs s 0 = CReturned /\ map fst (calls s) = [0;1;2;3;4;5].
Proof. vm_compute. repeat split. Qed.

(** ---------- C08 ---------- *)
(** One session: the detected CPU count, then any history of thread_setworkers requests. *)
Definition wakeup_after (cpus : Z) (requests : list Z) : Z :=
  fold_left (fun cur r => fst (SetFutexWakeup (GetProcCount cpus) cur r)) requests
            (start_futex (GetProcCount cpus) FUTEX_WAKE_DEFAULT).

Lemma procs_bounds cpus : 0 <= cpus -> 1 <= GetProcCount cpus <= 15.
Proof.
  intros H. unfold GetProcCount, MAX_THREADS_WHEN_CANNOT_DETECT, MAX_THREADS_ALLOWED, MAX_WORKER_HANDLES,
    MAX_WORKER_CHANNEL, MAX_WORKER_POOL, MAX_WORKER_RINGS.
  destruct (cpus =? 0) eqn:E1; destruct (_ >? _) eqn:E2; lia.
Qed.

Lemma if_gtb_min a b : (if a >? b then b else a) = Z.min a b.
Proof. destruct (Z.gtb_spec a b); lia. Qed.

Lemma setfutex_bounds W cur r : 1 <= W <= 15 -> 0 <= fst (SetFutexWakeup W cur r) <= W - 1.
Proof.
  intros H. unfold SetFutexWakeup, FUTEX_WAKE_MAX, MAX_WORKER_HANDLES, MAX_WORKER_CHANNEL, MAX_WORKER_POOL,
    MAX_WORKER_RINGS. simpl fst.
  rewrite !if_gtb_min. destruct (r <? 1) eqn:E1; lia.
Qed.

Lemma wakeup_after_bounds cpus reqs : 0 <= cpus -> 0 <= wakeup_after cpus reqs <= GetProcCount cpus - 1.
Proof.
  intros H. pose proof (procs_bounds cpus H) as HW. unfold wakeup_after.
  assert (G : forall l a, 0 <= a <= GetProcCount cpus - 1 ->
     0 <= fold_left (fun cur r => fst (SetFutexWakeup (GetProcCount cpus) cur r)) l a <= GetProcCount cpus - 1).
  { induction l as [|r l IH]; intros a Ha; [exact Ha|]. cbn [fold_left]. apply IH. exact (setfutex_bounds _ a r HW). }
  apply G. unfold start_futex, FUTEX_WAKE_DEFAULT. destruct (_ >? _) eqn:E; lia.
Qed.

Theorem C08_worker_counts :
  forall (cpus : Z) (requests : list Z) (asked : Z),
    0 <= cpus ->
    let W := GetProcCount cpus in              (* worker threads started *)
    let now := wakeup_after cpus requests in   (* thread_getworkers *)
    let t := effective_wakeup now asked in     (* workers woken by a call asking for [asked] *)
    1 <= W <= 15 /\
    0 <= now <= W - 1 /\
    (* thread_setworkers r: clamps to 1..W-1 (0 if there is one worker), and returns the previous value *)
    (forall r, SetFutexWakeup W now r = (Z.max 0 (Z.min (Z.max 1 r) (W - 1)), now)) /\
    (* a call never wakes more workers than allowed, and never more than it asked for *)
    0 <= t <= now /\ (0 < asked -> t <= asked) /\
    (* every channel index it touches (0..t+1) is inside the table of 16 *)
    t + 1 < MAX_WORKER_HANDLES /\
    (* pools signalled at the start = pools released at the end; they contain each entitled core's pool *)
    map fst (signalled t) = released t /\
    (forall core, 1 <= core <= t -> In (pool_of core) (map fst (signalled t)) /\ 0 <= pool_of core < MAX_WORKER_POOL) /\
    (forall p, In p (map fst (signalled t)) -> 0 <= p < MAX_WORKER_POOL).
Proof.
  intros cpus requests asked Hc W now t.
  pose proof (procs_bounds cpus Hc) as HW. pose proof (wakeup_after_bounds cpus requests Hc) as Hnow.
  fold W in HW, Hnow. fold now in Hnow.
  assert (Ht : 0 <= t <= now).
  { unfold t, effective_wakeup. destruct (asked <=? 0) eqn:E1; [lia|]. destruct (asked <? now) eqn:E2; lia. }
  assert (Hs : map fst (signalled t) = released t /\
               (forall core, 1 <= core <= t -> In (pool_of core) (released t)) /\
               (forall p, In p (released t) -> 0 <= p < 4)).
  { unfold signalled, released, pool_of, MAX_WORKER_CHANNEL.
    destruct (t >? 3) eqn:E1.
    - replace (t - 3 >? 4) with (t >? 7) by lia. destruct (t >? 7) eqn:E2.
      + replace (t - 3 - 4 >? 4) with (t >? 11) by lia. destruct (t >? 11) eqn:E3; simpl.
        * split; [reflexivity|]. split; [intros; lia|intros; lia].
        * split; [reflexivity|]. split; [intros; lia|intros; lia].
      + simpl. split; [reflexivity|]. split; [intros; lia|intros; lia].
    - simpl. split; [reflexivity|]. split; [intros; lia|intros; lia]. }
  destruct Hs as (Hs1 & Hs2 & Hs3).
  split; [exact HW|]. split; [exact Hnow|]. split.
  { intros r. unfold SetFutexWakeup, FUTEX_WAKE_MAX, MAX_WORKER_HANDLES, MAX_WORKER_CHANNEL, MAX_WORKER_POOL,
      MAX_WORKER_RINGS. f_equal. rewrite !if_gtb_min. destruct (r <? 1) eqn:E1; lia. }
  split; [exact Ht|]. split.
  { intros Ha. unfold t, effective_wakeup. destruct (asked <=? 0) eqn:E1; [lia|]. destruct (asked <? now) eqn:E2; lia. }
  unfold MAX_WORKER_POOL. split.
  { unfold MAX_WORKER_HANDLES, MAX_WORKER_CHANNEL, MAX_WORKER_POOL, MAX_WORKER_RINGS. lia. }
  split; [exact Hs1|]. split.
  - intros core Hcore. rewrite Hs1. pose proof (Hs2 core Hcore) as Hin. split; [exact Hin|]. apply Hs3. exact Hin.
  - intros p. rewrite Hs1. apply Hs3.
Qed.
Print Assumptions C08_worker_counts.

Example C08_nonvacuous :
  GetProcCount 64 = 15 /\ wakeup_after 64 [100; 2; 13] = 13 /\ effective_wakeup 13 7 = 7 /\
  signalled 13 = [(0, 3); (1, 4); (2, 4); (3, 4)].
Proof. vm_compute. repeat split. Qed.

(** ---------- C09 ---------- *)
(** The condition on operands: distinct outputs, and no element's output is another element's input.
    It covers disjoint operands and the exact in-place case (output = an input, same address and stride). *)
Definition no_cross_overlap {V} (u : ufunc V) (n : Z) : Prop :=
  forall i j, 0 <= i < n -> 0 <= j < n -> i <> j ->
    pDataOut u + i * itemSizeOut u <> pDataOut u + j * itemSizeOut u /\
    pDataOut u + i * itemSizeOut u <> pDataIn1 u + j * itemSizeIn1 u /\
    pDataOut u + i * itemSizeOut u <> pDataIn2 u + j * itemSizeIn2 u.

Theorem C09_threading_transparent :
  forall {V} (u : ufunc V) (n T : Z) (zz : bool) (m : Z -> V) (sched : list Z),
    0 <= n -> 0 <= T ->
    no_cross_overlap u n ->
    let s := run u (start n T zz m) sched in
    pcs s 0 = Returned ->
    (* each output element is the operation applied to the original inputs *)
    (forall i, 0 <= i < n ->
       mem s (pDataOut u + i * itemSizeOut u)
       = fop u (m (pDataIn1 u + i * itemSizeIn1 u)) (m (pDataIn2 u + i * itemSizeIn2 u))) /\
    (* nothing else is written *)
    (forall a, (forall i, 0 <= i < n -> a <> pDataOut u + i * itemSizeOut u) -> mem s a = m a) /\
    (* hence the same memory as the unthreaded loop *)
    (forall a, mem s a = seq_loop u n m a).
Proof.
  intros V u n T zz m sched Hn HT Hno s Hr.
  destruct (reach_inv u n T zz HT m sched) as (d & b & I). fold s in I.
  destruct (run_log_mem u sched (start n T zz m)) as (l & Hl & Hm). simpl in Hl. fold s in Hl, Hm.
  change (mem (start n T zz m)) with m in Hm.
  assert (Hocc : forall e, occ e l = if (0 <=? e) && (e <? n) then 1 else 0).
  { intros e. rewrite <- Hl. exact (inv_returned_log n T zz s d b 0 e I Hr). }
  assert (Hnd : NoDup l).
  { apply NoDup_of_occ. intros e. rewrite Hocc. destruct (_ && _); lia. }
  assert (Hin : forall e, In e l <-> 0 <= e < n).
  { intros e. rewrite <- occ_In, Hocc. destruct ((0 <=? e) && (e <? n)) eqn:E; lia. }
  destruct (fold_write u n l m Hno Hnd) as [F1 F2]; [intros e; apply Hin|].
  assert (R1 : forall i, 0 <= i < n -> mem s (pDataOut u + i * itemSizeOut u)
       = fop u (m (pDataIn1 u + i * itemSizeIn1 u)) (m (pDataIn2 u + i * itemSizeIn2 u))).
  { intros i Hi. rewrite Hm. apply F1. apply Hin. exact Hi. }
  assert (R2 : forall a, (forall i, 0 <= i < n -> a <> pDataOut u + i * itemSizeOut u) -> mem s a = m a).
  { intros a Ha. rewrite Hm. apply F2. intros e He. apply Ha, Hin, He. }
  split; [exact R1|]. split; [exact R2|].
  destruct (fold_write u n (zrange 0 n) m Hno (zrange_NoDup 0 n)) as [G1 G2].
  { intros e He. apply zrange_In in He. exact He. }
  intros a. unfold seq_loop.
  change (fold_left _ (zrange 0 n) m) with (fold_left (write_elem u) (zrange 0 n) m).
  assert (Hdec : (exists i, 0 <= i < n /\ a = aO u i) \/ (forall i, 0 <= i < n -> a <> aO u i)).
  { destruct (in_dec Z.eq_dec a (map (aO u) (zrange 0 n))) as [Hi|Hi].
    - left. apply in_map_iff in Hi. destruct Hi as (i & <- & Hi). apply zrange_In in Hi. eauto.
    - right. intros i Hi2 ->. apply Hi. apply in_map. apply zrange_In. exact Hi2. }
  destruct Hdec as [(i & Hi & ->)|Ha].
  - unfold aO at 1. rewrite (R1 i Hi). symmetry. apply G1. apply zrange_In. exact Hi.
  - rewrite (R2 a Ha). symmetry. apply G2. intros e He. apply zrange_In in He. apply Ha, He.
Qed.
Print Assumptions C09_threading_transparent.

(** in-place a += scalar over 100000 8-byte items with 3 workers: hypotheses hold, the call returns *)
Example C09_nonvacuous :
  let u := mkUfunc Z 4096 0 4096 8 0 8 (fun x y => x + y) in
  no_cross_overlap u 100000 /\
  pcs (run u (start 100000 3 true (fun a => a)) (demo_sched 100000 3)) 0 = Returned.
Proof.
  split; [|apply demo_returns; lia].
  unfold no_cross_overlap. cbn [pDataOut pDataIn1 pDataIn2 itemSizeOut itemSizeIn1 itemSizeIn2].
  intros i j Hi Hj Hne. lia.
Qed.
