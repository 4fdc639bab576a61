(** Overlap_Props.v - C50, C51: operands that overlap in memory. *)
From Verif Require Import Base Kernel_Model Kernel_Proofs Kernel_Props Threads_Model Threads_Proofs Threads_Live_Proofs Threads_Props.

(** ---------- C50: unthreaded calls on overlapping arrays equal the element-by-element loop ---------- *)
Definition same (m m' : bytes) : Prop := forall x, m x = m' x.

Lemma ldn_inj k : forall m m' a, bytes_ok m -> bytes_ok m' -> ldn k m a = ldn k m' a ->
  forall x, a <= x < a + Z.of_nat k -> m x = m' x.
Proof.
  induction k as [|k IH]; intros m m' a Hm Hm' E x Hx; [lia|].
  cbn [ldn] in E. pose proof (Hm a). pose proof (Hm' a).
  assert (E1 : m a = m' a) by lia. assert (E2 : ldn k m (a + 1) = ldn k m' (a + 1)) by lia.
  destruct (Z.eq_dec x a) as [->|Hne]; [exact E1|]. apply (IH m m' (a + 1)); auto; lia.
Qed.

Lemma stn_same k : forall m m' a v, same m m' -> same (stn k m a v) (stn k m' a v).
Proof.
  induction k as [|k IH]; intros m m' a v H; [exact H|]. cbn [stn]. apply IH.
  intros x. unfold zupd. destruct (x =? a); [reflexivity|apply H].
Qed.
Lemma ldn_same k : forall m m' a, same m m' -> ldn k m a = ldn k m' a.
Proof. intros m m' a H. apply ldn_ext. intros x _. apply H. Qed.

Lemma storev_same sz vs : forall m m' a, same m m' -> same (storev sz m a vs) (storev sz m' a vs).
Proof.
  induction vs as [|v vs IH]; intros m m' a H; [exact H|]. cbn [storev]. apply IH. apply stn_same, H.
Qed.
Lemma storev_bytes sz vs : forall m a, bytes_ok m -> bytes_ok (storev sz m a vs).
Proof. induction vs as [|v vs IH]; intros m a H; [exact H|]. cbn [storev]. apply IH, st_ok, H. Qed.

Lemma same_refl m : same m m. Proof. intros x. reflexivity. Qed.
Lemma same_trans a b c : same a b -> same b c -> same a c.
Proof. intros H K x. rewrite H. apply K. Qed.

(** what element-wise results share determines the memory *)
Lemma upto_unique sz out F n m0 m m' : 0 < sz -> bytes_ok m -> bytes_ok m' ->
  upto sz out sz F n m0 m -> upto sz out sz F n m0 m' -> 0 <= n -> same m m'.
Proof.
  intros Hs Hm Hm' [A1 A2] [B1 B2] Hn x.
  destruct (Z.lt_ge_cases x out) as [C|C].
  { rewrite A2, B2; [reflexivity| |]; intros i Hi; nia. }
  destruct (Z.lt_ge_cases x (out + n * sz)) as [D|D].
  2:{ rewrite A2, B2; [reflexivity| |]; intros i Hi; nia. }
  set (i := (x - out) / sz).
  pose proof (Z.div_mod (x - out) sz ltac:(lia)) as E. fold i in E.
  pose proof (Z.mod_pos_bound (x - out) sz Hs) as M.
  assert (Hi : 0 <= i < n) by nia.
  apply (ldn_inj (Z.to_nat sz) m m' (out + i * sz) Hm Hm').
  - fold (ld sz m (out + i * sz)). fold (ld sz m' (out + i * sz)). rewrite A1, B1 by exact Hi. reflexivity.
  - rewrite Z2Nat.id by lia. lia.
Qed.

Section Seq.
  Variables (sz : Z) (op : Z -> Z -> Z).
  Hypothesis Hg : good_sz sz.
  Hypothesis Hcl : closed_op sz op.

  Lemma scalar_loop_bytes x y out so n m : bytes_ok m -> bytes_ok (scalar_loop sz op x y out so n m).
  Proof.
    unfold scalar_loop. generalize (zrange 0 n). intros l. revert m. induction l as [|i l IH]; intros m H; [exact H|].
    cbn [fold_left]. apply IH, st_ok, H.
  Qed.

  Lemma scalar_loop_same x y out so n m m' : same m m' ->
    same (scalar_loop sz op x y out so n m) (scalar_loop sz op x y out so n m').
  Proof.
    unfold scalar_loop. generalize (zrange 0 n). intros l. revert m m'. induction l as [|i l IH]; intros m m' H; [exact H|].
    cbn [fold_left]. apply IH.
    assert (R : forall o, rd sz m o i = rd sz m' o i) by (intros [p s|v]; cbn; [apply ldn_same, H|reflexivity]).
    rewrite !R. apply stn_same, H.
  Qed.

  (** a loop over n + k elements is the loop over n followed by the loop over k *)
  Lemma scalar_loop_app a1 a2 out n k m : 0 <= n -> 0 <= k ->
    scalar_loop sz op (Ptr a1 sz) (Ptr a2 sz) out sz (n + k) m =
    scalar_loop sz op (Ptr (a1 + n * sz) sz) (Ptr (a2 + n * sz) sz) (out + n * sz) sz k
      (scalar_loop sz op (Ptr a1 sz) (Ptr a2 sz) out sz n m).
  Proof.
    intros Hn Hk. unfold scalar_loop. rewrite (zrange_split 0 n (n + k)) by lia. rewrite fold_left_app.
    generalize (fold_left (fun m i => st sz m (out + i * sz) (op (rd sz m (Ptr a1 sz) i) (rd sz m (Ptr a2 sz) i))) (zrange 0 n) m).
    intros m1. unfold zrange. replace (n + k - n) with k by lia. rewrite Z.sub_0_r.
    assert (G : forall c b m1,
      fold_left (fun m i => st sz m (out + i * sz) (op (rd sz m (Ptr a1 sz) i) (rd sz m (Ptr a2 sz) i))) (zseq (n + b) c) m1
      = fold_left (fun m i => st sz m (out + n * sz + i * sz) (op (rd sz m (Ptr (a1 + n * sz) sz) i) (rd sz m (Ptr (a2 + n * sz) sz) i))) (zseq b c) m1).
    { induction c as [|c IH]; intros b m2; [reflexivity|]. cbn [zseq fold_left rd].
      replace (n + b + 1) with (n + (b + 1)) by lia. rewrite <- IH. cbn [rd]. f_equal.
      f_equal; [ring|]. f_equal; f_equal; ring. }
    specialize (G (Z.to_nat k) 0 m1). rewrite Z.add_0_r in G. exact G.
  Qed.

  (** one register, when the output is not within 32 bytes above an input, does what the loop does on those elements *)
  Lemma one_register opv a1 a2 out m : bytes_ok m ->
    (forall x y, pat sz x -> pat sz y -> opv x y = op x y) ->
    (out <= a1 \/ a1 + 32 <= out) -> (out <= a2 \/ a2 + 32 <= out) ->
    same (storev sz m out (lanes2 opv (loadv sz m a1) (loadv sz m a2)))
         (scalar_loop sz op (Ptr a1 sz) (Ptr a2 sz) out sz (perReg sz) m).
  Proof.
    intros Hm Hv G1 G2. destruct (perReg_props sz Hg) as (HL & Lpos & _). pose proof (good_pos sz Hg) as Hs.
    set (F := fun i => op (ld sz m (a1 + i * sz)) (ld sz m (a2 + i * sz))).
    assert (HP : forall i, pat sz (F i)) by (intros i; apply Hcl; apply ld_pat; try lia; exact Hm).
    assert (Ho : outs_separate sz out sz (perReg sz)).
    { intros i j Hi Hj Hne. unfold disj. assert (i < j \/ j < i) as [C|C] by lia; nia. }
    apply (upto_unique sz out F (perReg sz) m); try lia.
    - apply storev_bytes, Hm.
    - apply scalar_loop_bytes, Hm.
    - pose proof (storev_upto sz out F (perReg sz) m ltac:(lia) Ho (fun i _ => HP i) (Z.to_nat (perReg sz)) 0 m) as S.
      rewrite Z.add_0_l, Z2Nat.id in S by lia. replace (out + 0 * sz) with out in S by lia.
      replace (lanes2 opv (loadv sz m a1) (loadv sz m a2)) with (map F (zseq 0 (Z.to_nat (perReg sz)))).
      + apply S; [lia|lia|apply upto_0].
      + unfold loadv. rewrite lanes2_map. unfold zrange. rewrite Z.sub_0_r. apply map_ext. intros i. unfold F.
        rewrite Hv; [reflexivity| |]; apply ld_pat; try lia; exact Hm.
    - apply (scalar_ok sz op op Hg Hcl a1 a2 out (perReg sz) sz sz sz m); try lia; try exact Hm.
      split; [exact Ho|]. split; intros i j Hj Hi; unfold disj.
      + destruct G1 as [G|G]; nia.
      + destruct G2 as [G|G]; nia.
  Qed.

  Lemma vector_loop_seq opv a1 a2 out q m : bytes_ok m -> 0 <= q ->
    (forall x y, pat sz x -> pat sz y -> opv x y = op x y) ->
    (out <= a1 \/ a1 + 32 <= out) -> (out <= a2 \/ a2 + 32 <= out) ->
    same (vector_loop sz opv (Ptr a1 sz) (Ptr a2 sz) out q m)
         (scalar_loop sz op (Ptr a1 sz) (Ptr a2 sz) out sz (q * perReg sz) m)
    /\ bytes_ok (vector_loop sz opv (Ptr a1 sz) (Ptr a2 sz) out q m).
  Proof.
    intros Hm Hq Hv G1 G2. destruct (perReg_props sz Hg) as (HL & Lpos & _).
    unfold vector_loop.
    apply (zrange_app_ind (fun k m' => same m' (scalar_loop sz op (Ptr a1 sz) (Ptr a2 sz) out sz (k * perReg sz) m) /\ bytes_ok m')); [exact Hq| |].
    - rewrite Z.mul_0_l. split; [apply same_refl|exact Hm].
    - intros k m' Hk [IH Hm']. split; [|apply storev_bytes, Hm'].
      replace ((k + 1) * perReg sz) with (k * perReg sz + perReg sz) by ring.
      rewrite scalar_loop_app by nia.
      replace (a1 + k * perReg sz * sz) with (a1 + 32 * k) by (rewrite <- HL; ring).
      replace (a2 + k * perReg sz * sz) with (a2 + 32 * k) by (rewrite <- HL; ring).
      replace (out + k * perReg sz * sz) with (out + 32 * k) by (rewrite <- HL; ring).
      eapply same_trans; [|apply scalar_loop_same, IH]. cbn [rdv].
      apply one_register; try assumption; lia.
  Qed.

  Lemma body_and_tail_seq opv a1 a2 out n m : bytes_ok m -> 0 <= n ->
    (forall x y, pat sz x -> pat sz y -> opv x y = op x y) ->
    (out <= a1 \/ a1 + 32 <= out) -> (out <= a2 \/ a2 + 32 <= out) ->
    same (body_and_tail sz op opv (Ptr a1 sz) (Ptr a2 sz) (Ptr a1 sz) (Ptr a2 sz) out n m)
         (scalar_loop sz op (Ptr a1 sz) (Ptr a2 sz) out sz n m).
  Proof.
    intros Hm Hn Hv G1 G2. destruct (perReg_props sz Hg) as (HL & Lpos & Hland).
    unfold body_and_tail. destruct (Z.leb_spec (perReg sz) n) as [C|C]; [|apply same_refl].
    rewrite Hland by exact Hn. set (q := n / perReg sz).
    assert (Hq : 0 <= q) by (apply Z.div_pos; lia).
    pose proof (Z.div_mod n (perReg sz) ltac:(lia)) as HD. fold q in HD.
    pose proof (Z.mod_pos_bound n (perReg sz) Lpos) as HM.
    replace (scalar_loop sz op (Ptr a1 sz) (Ptr a2 sz) out sz n m)
      with (scalar_loop sz op (Ptr a1 sz) (Ptr a2 sz) out sz (q * perReg sz + n mod perReg sz) m) by (f_equal; lia).
    rewrite scalar_loop_app by nia. cbn [adv].
    replace (a1 + q * perReg sz * sz) with (a1 + 32 * q) by (rewrite <- HL; ring).
    replace (a2 + q * perReg sz * sz) with (a2 + 32 * q) by (rewrite <- HL; ring).
    replace (out + q * perReg sz * sz) with (out + 32 * q) by (rewrite <- HL; ring).
    apply scalar_loop_same. apply vector_loop_seq; assumption.
  Qed.
End Seq.

(** C50: for contiguous arrays at ANY addresses, overlapping in any way, an unthreaded call of a hooked integer
    ufunc leaves exactly the memory that computing the elements one after the other leaves. *)
Theorem C50_overlap_sequential :
  forall (f : ufn) (t : ity) (e : entry) (nop : Z -> Z -> Z) (a1 a2 out n : Z) (m : bytes),
    table f t = Some e ->
    (forall x y, pat (isize t) x -> pat (isize t) y -> nop x y = scalar_of e x y) ->
    0 <= n -> bytes_ok m ->
    exists m', BinaryCall f t nop a1 a2 out n (isize t) (isize t) (isize t) m = Some m' /\
      same m' (fold_left (fun m i => st (isize t) m (out + i * isize t)
                  (nop (ld (isize t) m (a1 + i * isize t)) (ld (isize t) m (a2 + i * isize t)))) (zrange 0 n) m).
Proof.
  intros f t e nop a1 a2 out n m Hent Hnop Hn Hm.
  destruct (table_ok f t e Hent) as (Hcl & Hv & _). pose proof (isize_good t) as Hg. pose proof (good_pos _ Hg) as Hs.
  assert (Hcn : closed_op (isize t) nop) by (intros x y Hx Hy; rewrite Hnop by assumption; apply Hcl; assumption).
  change (fold_left _ (zrange 0 n) m) with (scalar_loop (isize t) nop (Ptr a1 (isize t)) (Ptr a2 (isize t)) out (isize t) n m).
  unfold BinaryCall. rewrite Hent. destruct (overlap_guard a1 a2 out) eqn:EG.
  { eexists. split; [reflexivity|apply same_refl]. }
  assert (G1 : out <= a1 \/ a1 + 32 <= out) by (unfold overlap_guard in EG; lia).
  assert (G2 : out <= a2 \/ a2 + 32 <= out) by (unfold overlap_guard in EG; lia).
  assert (Sop : same (scalar_loop (isize t) (scalar_of e) (Ptr a1 (isize t)) (Ptr a2 (isize t)) out (isize t) n m)
                     (scalar_loop (isize t) nop (Ptr a1 (isize t)) (Ptr a2 (isize t)) out (isize t) n m)).
  { unfold scalar_loop.
    assert (G : same (fold_left (fun m i => st (isize t) m (out + i * isize t) (scalar_of e (rd (isize t) m (Ptr a1 (isize t)) i) (rd (isize t) m (Ptr a2 (isize t)) i))) (zrange 0 n) m)
                     (fold_left (fun m i => st (isize t) m (out + i * isize t) (nop (rd (isize t) m (Ptr a1 (isize t)) i) (rd (isize t) m (Ptr a2 (isize t)) i))) (zrange 0 n) m)); [|exact G].
    generalize (zrange 0 n). intros l. revert m Hm. induction l as [|i l IH]; intros m Hm; [apply same_refl|].
    cbn [fold_left]. cbn [rd]. rewrite Hnop by (apply ld_pat; try lia; exact Hm).
    apply IH, st_ok, Hm. }
  assert (B : same (body_and_tail (isize t) (scalar_of e) (lane_of e) (Ptr a1 (isize t)) (Ptr a2 (isize t)) (Ptr a1 (isize t)) (Ptr a2 (isize t)) out n m)
     (scalar_loop (isize t) nop (Ptr a1 (isize t)) (Ptr a2 (isize t)) out (isize t) n m)).
  { eapply same_trans; [|exact Sop]. apply body_and_tail_seq; assumption. }
  destruct e as [op opv|op opv]; cbn [run_entry scalar_of lane_of] in *.
  - unfold SimpleMathOpFastSymmetric. rewrite Z.eqb_refl. cbn [andb].
    destruct (Z.eqb_spec a1 a2) as [->|Hne]; cbn [negb]; (eexists; split; [reflexivity|exact B]).
  - unfold SimpleMathOpFast. rewrite Z.eqb_refl. replace (isize t =? 0) with false by lia. cbn [andb negb].
    eexists. split; [reflexivity|exact B].
Qed.
Print Assumptions C50_overlap_sequential.

(** the guard matters: without it, a kernel whose output is one element above its input reads stale lanes *)
Example C50_guard_needed :
  let m := st 4 (fun _ => 0) 400 1 in
  exists m1 m2, run_entry (Sym (s_add 32) (v_add 32)) 4 400 800 404 16 4 4 4 m = Some m1 /\
    m2 = scalar_loop 4 (s_add 32) (Ptr 400 4) (Ptr 800 4) 404 4 16 m /\
    ld 4 m1 440 = 0 /\ ld 4 m2 440 = 1 /\ BinaryCall ADD INT32 (s_add 32) 400 800 404 16 4 4 4 m = Some m2.
Proof. cbv zeta. eexists. eexists. repeat split; vm_compute; reflexivity. Qed.

(** ---------- C51: an output array shifted below its input, on threads ---------- *)
(** NumPy lets np.add(a[1:], b, out=a[:-1]) reach the loop without a copy, because a loop running upwards reads
    each element before overwriting it (the input is "ahead").  Unthreaded that is right (C14: [no_clobber]).
    On threads it is wrong: for every length above one block there is a schedule in which the first element of
    block 1 is overwritten before block 0 reads it. *)
Definition shifted : ufunc Z := mkUfunc Z 8 0 0 8 0 8 (fun x y => x + 1).

Lemma frame_fold (u : ufunc Z) l a : (forall e, In e l -> a <> pDataOut u + e * itemSizeOut u) ->
  forall m, fold_left (write_elem u) l m a = m a.
Proof.
  induction l as [|e l IH]; intros H m; [reflexivity|]. cbn [fold_left]. rewrite IH.
  - unfold write_elem. apply zupd_neq. apply H. left. reflexivity.
  - intros e' He. apply H. right. exact He.
Qed.

Lemma seq_shifted n k : 0 <= k < n -> seq_loop shifted n (fun _ => 0) (k * 8) = 1.
Proof.
  intros Hk. unfold seq_loop. change (fold_left _ (zrange 0 n) (fun _ => 0)) with (fold_left (write_elem shifted) (zrange 0 n) (fun _ => 0)).
  rewrite (zrange_split 0 k n) by lia. rewrite (zrange_cons k n) by lia. rewrite fold_left_app. cbn [fold_left].
  rewrite frame_fold.
  - unfold write_elem at 1. cbn [pDataOut itemSizeOut shifted]. rewrite zupd_eq. cbn [fop pDataIn1 itemSizeIn1 shifted].
    rewrite frame_fold; [reflexivity|]. intros e He. apply zrange_In in He. cbn. lia.
  - intros e He. apply zrange_In in He. cbn [pDataOut itemSizeOut shifted]. lia.
Qed.

Lemma first_steps n T : 16384 < n -> 1 <= T ->
  log (run shifted (start n T false (fun _ => 0)) [1; 1; 1; 1]) = [16384].
Proof.
  intros Hn HT.
  set (it0 := work_main_init n T WORK_ITEM_CHUNK true false).
  assert (HB : 2 <= BlockLast it0).
  { cbn. unfold WORK_ITEM_CHUNK. apply Z.div_le_lower_bound; lia. }
  assert (HL : 0 < LastBlock (WorkerChannel it0 1)).
  { cbn [it0 work_main_init WorkerChannel LastBlock]. change ((n + (WORK_ITEM_CHUNK - 1)) / WORK_ITEM_CHUNK) with (BlockLast it0).
    set (B := BlockLast it0) in *. clearbody B.
    destruct (Z.lt_ge_cases B (T + 1)) as [C|C].
    - rewrite Z.div_small, Z.mod_small by lia. destruct (Z.ltb_spec 1 B); lia.
    - assert (1 <= B / (T + 1)) by (apply Z.div_le_lower_bound; lia). destruct (1 <? B mod (T + 1)); lia. }
  assert (HT0 : ThreadWakeup it0 = T) by reflexivity.
  assert (Hlb : logical_block it0 1 0 = 1) by (unfold logical_block; cbn; lia).
  assert (Hlen : 0 < block_length it0 1).
  { unfold block_length. assert (0 <= Z.land (TotalElements it0) WORK_ITEM_MASK) by (apply Z.land_nonneg; cbn; lia).
    change (BlockSize it0) with WORK_ITEM_CHUNK. unfold WORK_ITEM_CHUNK.
    destruct (_ =? BlockLast it0); [|lia].
    destruct (Z.eqb_spec (Z.land (TotalElements it0) WORK_ITEM_MASK) 0); cbn [negb]; lia. }
  unfold run, start. fold it0. cbn [fold_left].
  unfold step at 4. cbn [pcs it]. change (1 =? 0) with false. cbv iota. rewrite HT0.
  replace (1 <=? T) with true by lia. change (1 <=? 1) with true. cbn [andb].
  unfold goto at 1. cbn [it pcs mem log].
  unfold step at 3. cbn [pcs it]. rewrite zupd_eq. cbn [it].
  replace (CurrentBlock (WorkerChannel it0 1)) with 0 by reflexivity.
  replace (0 <? LastBlock (WorkerChannel it0 1)) with true by lia. rewrite Hlb.
  unfold goto at 1, with_item at 1. cbn [it pcs mem log].
  unfold step at 2. cbn [pcs it]. rewrite zupd_eq.
  unfold goto at 1, with_item at 1. cbn [it pcs mem log].
  unfold step at 1. cbn [pcs it]. rewrite zupd_eq.
  replace (0 <? block_length it0 1) with true by lia.
  reflexivity.
Qed.

Theorem C51_shifted_output_refuted :
  forall (n T : Z), 16384 < n -> 1 <= T ->
  exists sched : list Z,
    let s := run shifted (start n T false (fun _ => 0)) sched in
    pcs s 0 = Returned /\
    (* the one-after-the-other answer is 1, the threaded answer is 2 *)
    seq_loop shifted n (fun _ => 0) (16383 * 8) = 1 /\ mem s (16383 * 8) = 2.
Proof.
  intros n T Hn HT.
  exists ([1; 1; 1; 1] ++ demo_sched n T). intros s.
  set (s1 := run shifted (start n T false (fun _ => 0)) [1; 1; 1; 1]).
  assert (Hs : s = run shifted s1 (demo_sched n T)).
  { unfold s, s1, run. rewrite fold_left_app. reflexivity. }
  assert (Hret : pcs s 0 = Returned).
  { unfold s, demo_sched. rewrite app_assoc. apply fair_returns; try lia.
    - rewrite occ_app, occ_concat_repeat, occ_zrange by lia. change (occ 0 [1; 1; 1; 1]) with 0.
      rewrite Z2Nat.id; unfold BL, K, CH, WORK_ITEM_CHUNK.
      + replace (n + (16384 - 1)) with (n + 16383) by lia. lia.
      + assert (0 <= (n + 16383) / 16384) by (apply Z.div_pos; lia). nia.
    - intros c Hc. rewrite occ_concat_repeat, occ_zrange by lia. rewrite CH_val. lia. }
  split; [exact Hret|]. split; [apply seq_shifted; lia|].
  pose proof (first_steps n T Hn HT) as Hlog1. fold s1 in Hlog1.
  destruct (run_log_mem shifted [1; 1; 1; 1] (start n T false (fun _ => 0))) as (l1 & E1 & M1). fold s1 in E1, M1.
  change (log (start n T false (fun _ => 0))) with (@nil Z) in E1. cbn [app] in E1. rewrite <- E1, Hlog1 in M1.
  destruct (run_log_mem shifted (demo_sched n T) s1) as (l & E & M). rewrite <- Hs in E, M. rewrite Hlog1 in E.
  destruct (reach_inv shifted n T false ltac:(lia) (fun _ => 0) ([1; 1; 1; 1] ++ demo_sched n T)) as (d & b & I). fold s in I.
  assert (Hocc : forall e, occ e (log s) = if (0 <=? e) && (e <? n) then 1 else 0).
  { intros e. exact (inv_returned_log n T false s d b 0 e I Hret). }
  rewrite E in Hocc.
  assert (Hin : In 16383 l).
  { apply occ_In. pose proof (Hocc 16383) as O. rewrite occ_app in O. change (occ 16383 [16384]) with 0 in O.
    replace ((0 <=? 16383) && (16383 <? n)) with true in O by lia. lia. }
  assert (Hno : ~ In 16384 l).
  { intros C. apply occ_In in C. pose proof (Hocc 16384) as O. rewrite occ_app in O. change (occ 16384 [16384]) with 1 in O.
    destruct (_ && _); lia. }
  assert (Hone : occ 16383 l = 1).
  { pose proof (Hocc 16383) as O. rewrite occ_app in O. change (occ 16383 [16384]) with 0 in O.
    replace ((0 <=? 16383) && (16383 <? n)) with true in O by lia. lia. }
  apply in_split in Hin. destruct Hin as (la & lb & ->).
  assert (Hnb : ~ In 16383 lb).
  { intros C. apply occ_In in C. rewrite occ_app, occ_cons in Hone. change (16383 =? 16383) with true in Hone.
    pose proof (occ_nonneg 16383 la). lia. }
  rewrite M, fold_left_app. cbn [fold_left]. rewrite frame_fold.
  2:{ intros e He C. cbn [pDataOut itemSizeOut shifted] in C. assert (e = 16383) as -> by lia. contradiction. }
  unfold write_elem at 1. change (16383 * 8) with (pDataOut shifted + 16383 * itemSizeOut shifted). rewrite zupd_eq.
  cbn [fop shifted pDataIn1 itemSizeIn1]. change (8 + 16383 * 8) with 131072. rewrite frame_fold.
  2:{ intros e He C. cbn [pDataOut itemSizeOut shifted] in C. assert (e = 16384) as -> by lia. apply Hno, in_or_app. left. exact He. }
  rewrite M1. reflexivity.
Qed.
Print Assumptions C51_shifted_output_refuted.

(** unthreaded, the same call is right: the operands meet the hypothesis of C14 *)
Example C51_unthreaded_ok : operands_ok 8 8008 8 4 0 8000 8 100000.
Proof. unfold operands_ok, outs_separate, no_clobber, disj. repeat split; intros i j; intros; lia. Qed.
