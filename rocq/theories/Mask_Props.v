(** Mask_Props.v - C19, C20, C21: boolean-mask getitem. *)
From Verif Require Import Base Threads_Model Threads_Proofs Threads_Counter_Proofs Jobs_Model Jobs_Proofs Jobs_Call_Proofs Reduce_Proofs Mask_Model Mask_Proofs.

(** ======== specification ======== *)
(** a mask is an array of bytes, numpy booleans: zero is False, everything else is True *)
Definition mask_true (mask : Z -> Z) (strideB i : Z) : Prop := mask (i * strideB) <> 0.

(** [picks n mask strideB S]: S lists, in increasing order, exactly the positions 0 <= i < n where the mask is true *)
Definition picks (n : Z) (mask : Z -> Z) (strideB : Z) (S : list Z) : Prop :=
  (forall i, In i S <-> 0 <= i < n /\ mask_true mask strideB i) /\
  (forall j k a b, (j < k)%nat -> nth_error S j = Some a -> nth_error S k = Some b -> a < b).

(** the result of a[mask]: total is the number of true positions, slot j of the output holds the j-th of them, and no
    address outside those slots changed *)
Definition mask_result {V} (n : Z) (mask : Z -> Z) (strideB : Z) (val : Z -> V) (inp strideV out itemSize : Z)
    (m0 m' : Z -> V) (total : Z) : Prop :=
  exists S, picks n mask strideB S /\ total = Z.of_nat (length S) /\
    (forall j i, nth_error S j = Some i -> m' (out + Z.of_nat j * itemSize) = val (inp + i * strideV)) /\
    (forall a, (forall j, 0 <= j < total -> a <> out + j * itemSize) -> m' a = m0 a).

(** ======== lemmas ======== *)
Definition sels n mask strideB := filter (sel mask strideB) (zrange 0 n).

Lemma filter_zrange_sorted p a b j k x y : (j < k)%nat ->
  nth_error (filter p (zrange a b)) j = Some x -> nth_error (filter p (zrange a b)) k = Some y -> x < y.
Proof.
  intros Hjk. unfold zrange. generalize (Z.to_nat (b - a)). intros n. revert a j k Hjk.
  induction n as [|n IH]; intros a j k Hjk Hx Hy; [destruct j; discriminate|].
  cbn [zseq filter] in *. destruct (p a).
  - destruct j as [|j]; destruct k as [|k]; try lia; cbn in *.
    + injection Hx as <-. apply nth_error_In, filter_In in Hy. destruct Hy as [Hy _]. apply zseq_In in Hy. lia.
    + apply (IH (a + 1) j k); [lia|assumption..].
  - apply (IH (a + 1) j k); assumption.
Qed.

Lemma sels_picks n mask strideB : picks n mask strideB (sels n mask strideB).
Proof.
  split.
  - intros i. unfold sels, mask_true, sel. rewrite filter_In, zrange_In.
    destruct (Z.eqb_spec (mask (i * strideB)) 0); cbn [negb]; intuition (try congruence).
  - intros j k a b. apply filter_zrange_sorted.
Qed.

Lemma picks_unique n mask strideB S1 S2 : picks n mask strideB S1 -> picks n mask strideB S2 -> S1 = S2.
Proof.
  intros [A1 B1] [A2 B2].
  assert (HS : forall i, In i S1 <-> In i S2) by (intros i; rewrite A1, A2; reflexivity). clear A1 A2.
  revert S2 HS B2. induction S1 as [|a S1 IH]; intros [|b S2] HS B2.
  - reflexivity.
  - exfalso. apply (HS b). left; reflexivity.
  - exfalso. apply (HS a). left; reflexivity.
  - assert (Hlt : forall c (S : list Z), (forall j k x y, (j < k)%nat -> nth_error (c :: S) j = Some x -> nth_error (c :: S) k = Some y -> x < y) ->
        forall i, In i S -> c < i).
    { intros c S HB i Hi. apply In_nth_error in Hi. destruct Hi as [k Hk]. apply (HB 0%nat (Datatypes.S k) c i); [lia|reflexivity|exact Hk]. }
    pose proof (Hlt a S1 B1) as L1. pose proof (Hlt b S2 B2) as L2.
    assert (Hab : a = b).
    { destruct (proj1 (HS a) (or_introl eq_refl)) as [E|Hin]; [auto|].
      destruct (proj2 (HS b) (or_introl eq_refl)) as [E|Hin']; [auto|].
      specialize (L1 b Hin'). specialize (L2 a Hin). lia. }
    subst b. f_equal. apply IH.
    + intros j k x y Hjk Hx Hy. apply (B1 (S j) (S k)); [lia|assumption..].
    + intros i. split; intros Hi.
      * destruct (proj1 (HS i) (or_intror Hi)) as [E|H]; [|exact H]. specialize (L1 i Hi). lia.
      * destruct (proj2 (HS i) (or_intror Hi)) as [E|H]; [|exact H]. specialize (L2 i Hi). lia.
    + intros j k x y Hjk Hx Hy. apply (B2 (S j) (S k)); [lia|assumption..].
Qed.

Lemma filter_shift p a n c : nth_error (filter (fun i => p (a + i)) (zrange 0 n)) c =
  option_map (fun x => x - a) (nth_error (filter p (zrange a (a + n))) c).
Proof.
  replace (zrange a (a + n)) with (zrange (a + 0) (a + n)) by (f_equal; lia).
  rewrite <- map_zrange_shift. generalize (zrange 0 n). intros l. revert c.
  induction l as [|i l IH]; intros c; [destruct c; reflexivity|]. cbn [map filter].
  destruct (p (a + i)); [|apply IH]. destruct c; [cbn; f_equal; lia|cbn; apply IH].
Qed.

Lemma filter_split3 p a b n : 0 <= a <= b -> b <= n ->
  filter p (zrange 0 n) = filter p (zrange 0 a) ++ filter p (zrange a b) ++ filter p (zrange b n).
Proof.
  intros H1 H2. rewrite (zrange_split 0 a n) by lia. rewrite (zrange_split a b n) by lia. now rewrite !filter_app.
Qed.

(** element c of the piece [a,b) is element (count before a)+c of the whole *)
Lemma piece_global p a b n c x : 0 <= a <= b -> b <= n -> nth_error (filter p (zrange a b)) c = Some x ->
  nth_error (filter p (zrange 0 n)) (Z.to_nat (countp p 0 a) + c) = Some x.
Proof.
  intros H1 H2 Hc. rewrite (filter_split3 p a b n) by assumption. unfold countp. rewrite Nat2Z.id.
  rewrite nth_error_app2 by lia. rewrite nth_error_app1.
  - replace (_ + c - _)%nat with c by lia. exact Hc.
  - replace (_ + c - _)%nat with c by lia. apply nth_error_Some. congruence.
Qed.

Lemma firstn_zrange a b k : (k <= Z.to_nat (b - a))%nat -> firstn k (zrange a b) = zrange a (a + Z.of_nat k).
Proof.
  intros H. unfold zrange. replace (Z.to_nat (b - a)) with (k + (Z.to_nat (b - a) - k))%nat by lia.
  rewrite zseq_app, firstn_app, zseq_length, Nat.sub_diag. cbn [firstn]. rewrite app_nil_r.
  replace (Z.to_nat (a + Z.of_nat k - a)) with k by lia. rewrite <- (zseq_length a k) at 1. apply firstn_all.
Qed.

Lemma nth_error_zrange a b k x : nth_error (zrange a b) k = Some x <-> x = a + Z.of_nat k /\ x < b.
Proof.
  unfold zrange. remember (Z.to_nat (b - a)) as n eqn:E. revert a k E. induction n as [|n IH]; intros a k E.
  - cbn. destruct k; split; intros H; [discriminate|lia|discriminate|lia].
  - cbn [zseq]. destruct k as [|k].
    + cbn. split; [intros [= <-]; lia|intros [-> _]; f_equal; lia].
    + cbn [nth_error]. rewrite IH by lia. lia.
Qed.

Lemma global_piece p a b n j x : 0 <= a <= b -> b <= n -> a <= x < b ->
  nth_error (filter p (zrange 0 n)) j = Some x ->
  exists c, j = (Z.to_nat (countp p 0 a) + c)%nat /\ nth_error (filter p (zrange a b)) c = Some x.
Proof.
  intros H1 H2 Hx Hj. destruct (filter_nth_inv _ _ _ _ Hj) as (k & Hk & Hp & Hl).
  apply nth_error_zrange in Hk. destruct Hk as [Hk _].
  rewrite firstn_zrange in Hl by lia. rewrite (zrange_split 0 a (0 + Z.of_nat k)), filter_app, app_length in Hl by lia.
  exists (length (filter p (zrange a (0 + Z.of_nat k)))). split; [unfold countp; rewrite Nat2Z.id; lia|].
  replace (zrange a (0 + Z.of_nat k)) with (firstn (Z.to_nat (x - a)) (zrange a b)).
  - apply filter_firstn_nth; [|exact Hp]. apply nth_error_zrange. lia.
  - rewrite firstn_zrange by lia. f_equal. lia.
Qed.

Lemma filter_length_le {A} (p : A -> bool) l : (length (filter p l) <= length l)%nat.
Proof. induction l as [|a l IH]; cbn; [lia|]. destruct (p a); cbn; lia. Qed.

Section Main.
  Context {V : Type} (n : Z) (mask : Z -> Z) (strideB : Z) (val : Z -> V) (inp strideV out itemSize : Z).
  Hypotheses (Hn : 0 <= n) (Hmask : byte_data mask) (His : 0 < itemSize).
  Hypothesis Htail : strideB = 1 -> typed_size itemSize = true \/ strideV = itemSize.

  Notation S0 := (sels n mask strideB).
  Notation q offs := (mkMC mask strideB val inp strideV out itemSize offs).

  Let fres (m0 : Z -> V) (a : Z) : V :=
    match nth_error S0 (Z.to_nat ((a - out) / itemSize)) with Some i => val (inp + i * strideV) | None => m0 a end.

  Lemma fres_at m0 j i : nth_error S0 j = Some i -> fres m0 (out + Z.of_nat j * itemSize) = val (inp + i * strideV).
  Proof.
    intros H. unfold fres. replace ((out + Z.of_nat j * itemSize - out) / itemSize) with (Z.of_nat j).
    - rewrite Nat2Z.id, H. reflexivity.
    - replace (out + Z.of_nat j * itemSize - out) with (Z.of_nat j * itemSize) by lia. now rewrite Z.div_mul by lia.
  Qed.

  Lemma tail_ok offs : mc_strideB (q offs) = 1 -> tail_adv (q offs) = mc_itemSize (q offs).
  Proof. cbn. unfold tail_adv. cbn. intros E. destruct (Htail E) as [H1|H1]; rewrite H1; [|destruct (typed_size itemSize)]; reflexivity. Qed.

  (** the copy phase alone *)
  Lemma copy_alone offs m0 : offs 0 = 0 ->
    let m' := run_ops 0 (copy_prog (q offs) 0 n) m0 in
    (forall j i, nth_error S0 j = Some i -> m' (out + Z.of_nat j * itemSize) = val (inp + i * strideV)) /\
    (forall a, (forall j, 0 <= j < Z.of_nat (length S0) -> a <> out + j * itemSize) -> m' a = m0 a).
  Proof.
    intros H0 m'.
    assert (Hs : forall c, slot (q offs) 0 c = out + Z.of_nat c * itemSize).
    { intros c. unfold slot. cbn [mc_out mc_offs mc_itemSize]. change (0 / WORK_ITEM_CHUNK) with 0. rewrite H0. lia. }
    assert (Hv : forall i, value (q offs) 0 i = val (inp + i * strideV)) by (intros; unfold value; cbn; f_equal; lia).
    assert (Hfil : filter (fun i => sel (mc_mask (q offs)) (mc_strideB (q offs)) (0 + i)) (zrange 0 n) = S0).
    { apply filter_ext. intros i. cbn. reflexivity. }
    destruct (copy_single (q offs) Hmask (tail_ok offs) 0 n m0 (fres m0) Hn) as [A B].
    - intros c i Hc. rewrite Hfil in Hc. rewrite Hs, Hv. apply fres_at, Hc.
    - rewrite Hfil in *. split.
      + intros j i Hj. specialize (A j i Hj). now rewrite Hs, Hv in A.
      + intros a Ha. apply B. intros c Hc. rewrite Hs. apply Ha. lia.
  Qed.

  Lemma copy_threaded offs m0 T zz sched m' : 0 <= T ->
    (forall w, 0 <= w < BL n -> offs w = countp (sel mask strideB) 0 (CH * w)) ->
    jreturned (copy_prog (q offs)) 0 ChunkMode n T zz m0 sched m' ->
    (forall j i, nth_error S0 j = Some i -> m' (out + Z.of_nat j * itemSize) = val (inp + i * strideV)) /\
    (forall a, (forall j, 0 <= j < Z.of_nat (length S0) -> a <> out + j * itemSize) -> m' a = m0 a).
  Proof.
    intros HT Ho Hr.
    assert (Hrange : forall w, 0 <= w < BL n -> 0 <= CH * w <= CH * w + blen n w /\ CH * w + blen n w <= n).
    { intros w Hw. rewrite blen_val by assumption. unfold BL in Hw. rewrite CH_val in *. lia. }
    assert (Hs : forall w c, 0 <= w < BL n -> slot (q offs) (CH * w) c = out + Z.of_nat (Z.to_nat (countp (sel mask strideB) 0 (CH * w)) + c) * itemSize).
    { intros w c Hw. unfold slot. cbn [mc_out mc_offs mc_itemSize].
      replace (CH * w / WORK_ITEM_CHUNK) with w by (change WORK_ITEM_CHUNK with CH; rewrite CH_val; lia).
      rewrite Ho by assumption. pose proof (countp_nonneg (sel mask strideB) 0 (CH * w)). f_equal. f_equal. lia. }
    assert (Hg : forall w c i, 0 <= w < BL n ->
       nth_error (filter (fun i => sel mask strideB (CH * w + i)) (zrange 0 (blen n w))) c = Some i ->
       nth_error S0 (Z.to_nat (countp (sel mask strideB) 0 (CH * w)) + c) = Some (CH * w + i)).
    { intros w c i Hw Hc. rewrite filter_shift in Hc.
      destruct (nth_error (filter _ (zrange (CH * w) _)) c) as [x|] eqn:E; [|discriminate]. injection Hc as <-.
      replace (CH * w + (x - CH * w)) with x by lia. apply (piece_global _ (CH * w) (CH * w + blen n w)); [apply Hrange, Hw..|exact E]. }
    destruct (copy_phase (q offs) Hmask (tail_ok offs) n T zz m0 sched m' (fres m0) Hn HT) as [A B].
    - intros w c i Hw Hc. rewrite Hs by assumption. unfold value. cbn [mc_val mc_in mc_strideV].
      apply fres_at. apply Hg; assumption.
    - exact Hr.
    - split.
      + intros j i Hj.
        assert (Hi : 0 <= i < n) by (apply nth_error_In, filter_In in Hj; destruct Hj as [Hj _]; apply zrange_In in Hj; exact Hj).
        set (w := i / CH). assert (Hw : 0 <= w < BL n) by (unfold w, BL; rewrite CH_val; lia).
        assert (Hiw : CH * w <= i < CH * w + blen n w) by (rewrite blen_val by assumption; unfold w; rewrite CH_val; lia).
        destruct (global_piece (sel mask strideB) (CH * w) (CH * w + blen n w) n j i) as (c & -> & Hc);
          [apply Hrange, Hw..|exact Hiw|exact Hj|].
        rewrite <- Hs by assumption.
        rewrite (A w c (i - CH * w) Hw); [unfold value; cbn; f_equal; lia|].
        cbn [mc_mask mc_strideB]. rewrite filter_shift, Hc. reflexivity.
      + intros a Ha. apply B. intros w c Hw Hc. rewrite Hs by assumption.
        apply Ha. cbn [mc_mask mc_strideB] in Hc. apply nth_error_Some in Hc.
        destruct (nth_error _ c) as [i|] eqn:E; [|congruence]. specialize (Hg w c i Hw E).
        assert (HH := proj1 (nth_error_Some S0 _) ltac:(rewrite Hg; discriminate)). lia.
  Qed.

  Lemma boolean_index_right junk h1 h2 m0 m' total :
    is_threaded h1 = true \/ is_threaded h2 = false ->
    boolean_index n mask strideB val inp strideV out itemSize junk h1 h2 m0 m' total ->
    mask_result n mask strideB val inp strideV out itemSize m0 m' total.
  Proof.
    intros Hh (counts & H1 & Htot & H2). cbv zeta in Htot, H2.
    assert (HL : Z.of_nat (length S0) = countp (sel mask strideB) 0 n) by reflexivity.
    assert (Hmc : mask_chunks n = if n >? 0 then BL n else 1).
    { unfold mask_chunks, BL. change CH with WORK_ITEM_CHUNK. unfold WORK_ITEM_CHUNK.
      destruct (Z.gtb_spec n 1), (Z.gtb_spec n 0); lia. }
    assert (HBL : 0 < n -> 0 < BL n) by (unfold BL; rewrite CH_val; lia).
    (* offsets and total, by how phase one ran *)
    assert (Hps : total = countp (sel mask strideB) 0 n /\
       (let offs := snd (prefix_sums (if is_threaded h1 then mask_chunks n else 1) counts) in
        offs 0 = 0 /\ (is_threaded h1 = true -> forall w, 0 <= w < BL n -> offs w = countp (sel mask strideB) 0 (CH * w)))).
    { destruct h1 as [|T zz sched]; cbn [is_threaded chunk_call] in *.
      - destruct (prefix_sums_spec counts 1 ltac:(lia)) as (P1 & P2 & _). cbv zeta in *.
        rewrite P1 in Htot. split; [|split; [apply (P2 0); lia|discriminate]].
        rewrite Htot. change (Z.to_nat 1) with 1%nat. cbn [zsumf]. rewrite Z.add_0_l. rewrite H1. unfold run_ops, count_prog, do_op. cbn [fold_left fst snd stored].
        change (0 / WORK_ITEM_CHUNK) with 0. change (Z.of_nat 0) with 0. rewrite zupd_eq. apply (sum_mask_piece mask strideB 0 n Hmask Hn).
      - destruct H1 as (HB & HT & H1). unfold WORK_ITEM_BIG, WORK_ITEM_CHUNK in HB.
        pose proof (count_phase mask strideB n T zz junk sched counts Hmask Hn HT H1) as Hc.
        rewrite Hmc in *. destruct (Z.gtb_spec n 0) as [Hpos|]; [|lia]. specialize (HBL Hpos).
        destruct (prefix_sums_spec counts (BL n) ltac:(lia)) as (P1 & P2 & _). cbv zeta in *.
        assert (Hz : forall k, Z.of_nat k <= BL n -> zsumf counts k = countp (sel mask strideB) 0 (Z.min n (CH * Z.of_nat k))).
        { intros k Hk. rewrite <- zsumf_chunks by assumption. clear - Hc Hk. induction k as [|k IH]; [reflexivity|].
          cbn [zsumf]. rewrite IH by lia. rewrite Hc by lia. reflexivity. }
        rewrite P1, Hz in Htot by lia.
        assert (Hlim : Z.min n (CH * Z.of_nat (Z.to_nat (BL n))) = n) by (unfold BL; rewrite CH_val; lia).
        rewrite Hlim in Htot. split; [exact Htot|]. split.
        + rewrite P2 by lia. reflexivity.
        + intros _ w Hw. rewrite P2, Hz by lia. f_equal. unfold BL in Hw. rewrite CH_val in *. lia. }
    exists S0. split; [apply sels_picks|].
    destruct Hps as (Et & Ho & Hw).
    rewrite Et. split; [rewrite HL; reflexivity|].
    destruct (Z.gtb_spec total 0) as [Hp|Hp].
    + destruct h2 as [|T zz sched]; cbn [chunk_call] in H2.
      * rewrite H2. rewrite <- HL. apply copy_alone, Ho.
      * destruct Hh as [Hh|Hh]; [|discriminate]. destruct H2 as (_ & HT & H2). rewrite <- HL.
        apply (copy_threaded _ m0 T zz sched m' HT (Hw Hh) H2).
    + assert (E : S0 = []) by (destruct S0; [reflexivity|cbn [length] in HL; lia]).
      rewrite E. split; [intros [|j] i; discriminate|]. intros a _. now rewrite H2.
  Qed.
End Main.

(** ======== C19 ======== *)
(** the count of a mask is the number of positions that are true, for every length, stride and contents *)
Theorem C19_mask_count : forall mask stride n S, (forall i, 0 <= mask i < 256) -> 0 <= n ->
  picks n mask stride S -> SumBooleanMask mask n stride = Z.of_nat (length S).
Proof.
  intros mask stride n S Hb Hn HS. rewrite (picks_unique _ _ _ _ _ HS (sels_picks n mask stride)).
  rewrite sum_mask_spec by assumption. reflexivity.
Qed.
Print Assumptions C19_mask_count.

(** no 8-bit lane overflows: a million trues are counted as a million *)
Example C19_nonvacuous : exists S, picks 1000000 (fun _ => 1) 1 S /\ SumBooleanMask (fun _ => 1) 1000000 1 = 1000000.
Proof.
  exists (sels 1000000 (fun _ => 1) 1). split; [apply sels_picks|].
  rewrite sum_mask_spec by (try lia; intros i; lia).
  unfold countp, nz. cbn [negb]. rewrite (filter_ext _ (fun _ => true)) by reflexivity.
  assert (forall l : list Z, filter (fun _ => true) l = l) as -> by (induction l as [|x l IH]; [reflexivity|cbn; now rewrite IH]).
  rewrite zrange_length. lia.
Qed.

(** ======== C20 ======== *)
(** item sizes 1, 2, 4, 8: a[mask] is right for every length, mask, strides and interleaving of both phases, provided the
    second pass ran threaded only if the first one did *)
Theorem C20_mask_getitem_partial : forall V n mask strideB (val : Z -> V) inp strideV out itemSize junk h1 h2 m0 m' total,
  0 <= n -> (forall i, 0 <= mask i < 256) ->
  (itemSize = 1 \/ itemSize = 2 \/ itemSize = 4 \/ itemSize = 8) ->
  is_threaded h1 = true \/ is_threaded h2 = false ->
  boolean_index n mask strideB val inp strideV out itemSize junk h1 h2 m0 m' total ->
  mask_result n mask strideB val inp strideV out itemSize m0 m' total.
Proof.
  intros V n mask strideB val inp strideV out itemSize junk h1 h2 m0 m' total Hn Hb Hi Hh Hr.
  apply (boolean_index_right n mask strideB val inp strideV out itemSize Hn Hb) with (junk := junk) (h1 := h1) (h2 := h2);
    [lia| |exact Hh|exact Hr].
  intros _. left. destruct Hi as [->|[->|[->| ->]]]; reflexivity.
Qed.
Print Assumptions C20_mask_getitem_partial.

(** any two ways of running the call (threaded or not, any schedules) return the same *)
Theorem C20_schedule_independent : forall V n mask strideB (val : Z -> V) inp strideV out itemSize junk h1 h2 junk' h1' h2' m0 m' m'' total total',
  0 <= n -> (forall i, 0 <= mask i < 256) ->
  (itemSize = 1 \/ itemSize = 2 \/ itemSize = 4 \/ itemSize = 8) ->
  is_threaded h1 = true \/ is_threaded h2 = false ->
  is_threaded h1' = true \/ is_threaded h2' = false ->
  boolean_index n mask strideB val inp strideV out itemSize junk h1 h2 m0 m' total ->
  boolean_index n mask strideB val inp strideV out itemSize junk' h1' h2' m0 m'' total' ->
  total = total' /\ forall a, m' a = m'' a.
Proof.
  intros V n mask strideB val inp strideV out itemSize junk h1 h2 junk' h1' h2' m0 m' m'' total total' Hn Hb Hi Hh Hh' H1 H2.
  apply C20_mask_getitem_partial in H1; [|assumption..]. apply C20_mask_getitem_partial in H2; [|assumption..].
  destruct H1 as (S1 & P1 & T1 & A1 & B1), H2 as (S2 & P2 & T2 & A2 & B2).
  rewrite <- (picks_unique _ _ _ _ _ P1 P2) in *. subst total total'. split; [reflexivity|].
  intros a.
  destruct (Z.eq_dec ((a - out) mod itemSize) 0) as [E|E].
  - destruct (nth_error S1 (Z.to_nat ((a - out) / itemSize))) as [i|] eqn:Ei.
    + destruct (Z.ltb_spec (a - out) 0) as [Hlt|Hge].
      * rewrite B1, B2; [reflexivity| |]; intros j Hj; nia.
      * assert (Ea : a = out + Z.of_nat (Z.to_nat ((a - out) / itemSize)) * itemSize).
        { assert (0 < itemSize) by lia. pose proof (Z.div_pos (a - out) itemSize ltac:(lia) ltac:(lia)).
          rewrite Z2Nat.id by lia. pose proof (Z.div_mod (a - out) itemSize ltac:(lia)). lia. }
        rewrite Ea, (A1 _ i Ei), (A2 _ i Ei). reflexivity.
    + apply nth_error_None in Ei.
      rewrite B1, B2; [reflexivity| |]; intros j Hj ->; replace (out + j * itemSize - out) with (j * itemSize) in Ei by lia;
        rewrite Z.div_mul in Ei by lia; lia.
  - rewrite B1, B2; [reflexivity| |]; intros j Hj ->; apply E; replace (out + j * itemSize - out) with (j * itemSize) by lia;
      apply Z.mod_mul; lia.
Qed.
Print Assumptions C20_schedule_independent.

(** both phases threaded with three workers: such a run exists, and its result is as specified *)
Example C20_nonvacuous : exists h1 h2 m' total,
  boolean_index 100000 (fun i => i mod 2) 1 (fun a => a) 0 8 0 8 (fun _ => 77) h1 h2 (fun _ => -1) m' total /\
  is_threaded h1 = true /\ is_threaded h2 = true /\ total = 50000 /\ m' (49999 * 8) = 99999 * 8.
Proof.
  destruct (jobs_can_return (count_prog (fun i => i mod 2) 1) tt ChunkMode 100000 3 true (fun _ => 77) ltac:(lia) ltac:(lia) ltac:(discriminate))
    as (s1 & counts & H1).
  set (ps := prefix_sums (mask_chunks 100000) counts).
  destruct (jobs_can_return (copy_prog (mkMC (fun i => i mod 2) 1 (fun a => a) 0 8 0 8 (snd ps))) 0 ChunkMode 100000 3 true (fun _ => -1) ltac:(lia) ltac:(lia) ltac:(discriminate))
    as (s2 & m' & H2).
  exists (Threaded 3 true s1), (Threaded 3 true s2).
  assert (HB : WORK_ITEM_BIG <= 100000) by (unfold WORK_ITEM_BIG, WORK_ITEM_CHUNK; lia).
  assert (Hlen : forall k, 0 <= k -> sels (2 * k) (fun i => i mod 2) 1 = map (fun j => 2 * j + 1) (zrange 0 k)).
  { apply natlike_ind; [reflexivity|]. intros k Hk IH. replace (2 * Z.succ k) with (2 * k + 1 + 1) by lia.
    replace (Z.succ k) with (k + 1) by lia.
    unfold sels in *. rewrite !zrange_snoc by lia. rewrite !filter_app, IH, map_app. cbn [filter map].
    unfold sel. replace (2 * k * 1) with (2 * k) by lia. replace ((2 * k + 1) * 1) with (2 * k + 1) by lia.
    replace ((2 * k) mod 2) with 0 by lia. replace ((2 * k + 1) mod 2) with 1 by lia. cbn. now rewrite app_nil_r. }
  specialize (Hlen 50000 ltac:(lia)). change (2 * 50000) with 100000 in Hlen.
  assert (Htot : forall m'' tot, boolean_index 100000 (fun i => i mod 2) 1 (fun a => a) 0 8 0 8 (fun _ => 77) (Threaded 3 true s1) (Threaded 3 true s2) (fun _ => -1) m'' tot ->
     tot = 50000 /\ m'' (49999 * 8) = 99999 * 8).
  { intros m'' tot Hb. apply C20_mask_getitem_partial in Hb; [|lia|intros i; lia|lia|left; reflexivity].
    destruct Hb as (S & P & T & A & _). rewrite (picks_unique _ _ _ _ _ P (sels_picks _ _ _)), Hlen in *.
    rewrite map_length, zrange_length in T. split; [lia|].
    specialize (A (Z.to_nat 49999) 99999). rewrite nth_error_map in A.
    destruct (nth_error (zrange 0 50000) (Z.to_nat 49999)) as [x|] eqn:E.
    - apply nth_error_zrange in E. cbn [option_map] in A. destruct E as [-> _].
      specialize (A ltac:(f_equal; lia)). replace (0 + Z.of_nat (Z.to_nat 49999) * 8) with (49999 * 8) in A by lia. rewrite A. lia.
    - exfalso. apply nth_error_None in E. rewrite zrange_length in E. lia. }
  destruct (Z.gtb_spec (fst ps) 0) as [Hp|Hp].
  - assert (Hbi : boolean_index 100000 (fun i => i mod 2) 1 (fun a => a) 0 8 0 8 (fun _ => 77) (Threaded 3 true s1) (Threaded 3 true s2) (fun _ => -1) m' (fst ps)).
    { exists counts. split; [split; [exact HB|split; [lia|exact H1]]|]. cbv zeta. cbn [is_threaded]. fold ps. split; [reflexivity|].
      destruct (Z.gtb_spec (fst ps) 0); [|lia]. split; [exact HB|]. split; [lia|]. exact H2. }
    exists m', (fst ps). split; [exact Hbi|]. split; [reflexivity|]. split; [reflexivity|]. exact (Htot _ _ Hbi).
  - exfalso. assert (Hbi : boolean_index 100000 (fun i => i mod 2) 1 (fun a => a) 0 8 0 8 (fun _ => 77) (Threaded 3 true s1) (Threaded 3 true s2) (fun _ => -1) (fun _ => -1) (fst ps)).
    { exists counts. split; [split; [exact HB|split; [lia|exact H1]]|]. cbv zeta. cbn [is_threaded]. fold ps. split; [reflexivity|].
      destruct (Z.gtb_spec (fst ps) 0); [lia|reflexivity]. }
    destruct (Htot _ _ Hbi). lia.
Qed.

(** The full claim, for every way the two phases can run, fails: if the counting pass found the work item taken (another
    thread was inside a threaded ufunc) it counts alone and leaves only chunk 0's offset defined; a copying pass that then
    does get the work item reads uninitialised offsets for the other chunks and scatters their elements. *)
Theorem C20_mask_getitem_refuted : ~ (forall (n : Z) mask strideB (val : Z -> Z) inp strideV out itemSize junk h1 h2 m0 m' total,
  0 <= n -> (forall i, 0 <= mask i < 256) -> typed_size itemSize = true ->
  boolean_index n mask strideB val inp strideV out itemSize junk h1 h2 m0 m' total ->
  mask_result n mask strideB val inp strideV out itemSize m0 m' total).
Proof.
  intros H.
  set (mask := fun _ : Z => 1). set (n := 65536).
  set (junk := fun w : Z => 1000000 * w).
  set (counts := run_ops tt (count_prog mask 1 0 n) junk).
  set (ps := prefix_sums 1 counts).
  assert (Hb : byte_data mask) by (intros i; unfold mask; lia).
  assert (HBIG : WORK_ITEM_BIG <= n) by (unfold WORK_ITEM_BIG, WORK_ITEM_CHUNK, n; lia).
  set (q := mkMC mask 1 (fun a : Z => a) 0 8 0 8 (snd ps)).
  destruct (jobs_can_return (copy_prog q) 0 ChunkMode n 3 true (fun _ => -1) ltac:(unfold n; lia) ltac:(lia) ltac:(discriminate))
    as (sched & m' & Hr).
  assert (Hc0 : counts 0 = n).
  { unfold counts, run_ops, count_prog, do_op. cbn [fold_left fst snd stored]. change (0 / WORK_ITEM_CHUNK) with 0. rewrite zupd_eq.
    rewrite (sum_mask_piece mask 1 0 n Hb ltac:(unfold n; lia)). unfold countp, sel, mask. cbn [negb].
    rewrite (filter_ext _ (fun _ => true)) by reflexivity.
    assert (forall l : list Z, filter (fun _ => true) l = l) as -> by (induction l as [|x l IH]; [reflexivity|cbn; now rewrite IH]).
    rewrite zrange_length. unfold n. lia. }
  assert (Hcw : forall w, w <> 0 -> counts w = 1000000 * w).
  { intros w Hw. unfold counts, run_ops, count_prog, do_op. cbn [fold_left fst snd stored]. change (0 / WORK_ITEM_CHUNK) with 0.
    now rewrite zupd_neq by assumption. }
  destruct (prefix_sums_spec counts 1 ltac:(lia)) as (P1 & P2 & P3). cbv zeta in *. fold ps in P1, P2, P3.
  change (Z.to_nat 1) with 1%nat in P1. cbn [zsumf] in P1. change (Z.of_nat 0) with 0 in P1. rewrite Hc0 in P1.
  specialize (P2 0 ltac:(lia)). cbn [Z.to_nat zsumf] in P2.
  assert (Ho : forall w, snd ps w = 1000000 * w).
  { intros w. destruct (Z.eq_dec w 0) as [->|Hw]; [exact P2|]. rewrite P3 by lia. apply Hcw, Hw. }
  assert (Hbi : boolean_index n mask 1 (fun a : Z => a) 0 8 0 8 junk Alone (Threaded 3 true sched) (fun _ => -1) m' n).
  { exists counts. split; [reflexivity|]. cbv zeta. cbn [is_threaded]. fold ps. split; [lia|].
    destruct (Z.gtb_spec n 0) as [_|HH]; [|unfold n in HH; lia]. split; [exact HBIG|]. split; [lia|]. exact Hr. }
  apply H in Hbi; [|unfold n; lia|exact Hb|reflexivity].
  destruct Hbi as (S & P & HT & A & _).
  (* slot 16384 should hold element 16384; it was never written *)
  assert (HS : nth_error S (Z.to_nat 16384) = Some 16384).
  { rewrite (picks_unique _ _ _ _ _ P (sels_picks _ _ _)). unfold sels, sel, mask. cbn [negb].
    rewrite (filter_ext _ (fun _ => true)) by reflexivity.
    assert (forall l : list Z, filter (fun _ => true) l = l) as -> by (induction l as [|x l IH]; [reflexivity|cbn; now rewrite IH]).
    apply nth_error_zrange. unfold n. lia. }
  specialize (A _ _ HS).
  assert (Hslot : forall w c, slot q (CH * w) c = (1000000 * w + Z.of_nat c) * 8).
  { intros w c. unfold slot, q. cbn [mc_out mc_offs mc_itemSize]. rewrite Ho.
    replace (CH * w / WORK_ITEM_CHUNK) with w by (change WORK_ITEM_CHUNK with CH; rewrite CH_val; lia). lia. }
  destruct (copy_phase q Hb (fun _ => eq_refl) n 3 true (fun _ => -1) sched m'
     (fun a => let w := (a / 8) / 1000000 in (CH * w + (a / 8) mod 1000000) * 8)) as [_ B].
  - unfold n; lia.
  - lia.
  - intros w c i Hw Hc. rewrite Hslot. unfold value, q. cbn [mc_val mc_in mc_strideV].
    cbv zeta. rewrite Z.div_mul by lia.
    assert (Hci : i = Z.of_nat c /\ i < CH).
    { unfold sel, q in Hc. cbn [mc_mask mc_strideB] in Hc. unfold mask in Hc. cbn [negb] in Hc.
      rewrite (filter_ext _ (fun _ => true)) in Hc by reflexivity.
      assert (Hid : forall l : list Z, filter (fun _ => true) l = l) by (induction l as [|x l IH]; [reflexivity|cbn; now rewrite IH]).
      rewrite Hid in Hc. apply nth_error_zrange in Hc. assert (Hbw := blen_val n w Hw). lia. }
    rewrite CH_val in *. lia.
  - exact Hr.
  - replace (0 + Z.of_nat (Z.to_nat 16384) * 8) with 131072 in A by lia.
    rewrite B in A; [lia|].
    intros w c Hw Hc. rewrite Hslot.
    assert (Hcl : (c < Z.to_nat CH)%nat).
    { eapply Nat.lt_le_trans; [exact Hc|]. etransitivity; [apply filter_length_le|]. rewrite zrange_length.
      rewrite blen_val by (try assumption; unfold n; lia). lia. }
    rewrite CH_val in Hcl. unfold BL in Hw. rewrite CH_val in Hw. lia.
Qed.
Print Assumptions C20_mask_getitem_refuted.

(** ======== C21 ======== *)
(** other item sizes: right when the mask is strided, or when the values are contiguous *)
Theorem C21_mask_getitem_partial : forall V n mask strideB (val : Z -> V) inp strideV out itemSize junk h1 h2 m0 m' total,
  0 <= n -> (forall i, 0 <= mask i < 256) -> 0 < itemSize ->
  (strideB <> 1 \/ strideV = itemSize) ->
  is_threaded h1 = true \/ is_threaded h2 = false ->
  boolean_index n mask strideB val inp strideV out itemSize junk h1 h2 m0 m' total ->
  mask_result n mask strideB val inp strideV out itemSize m0 m' total.
Proof.
  intros V n mask strideB val inp strideV out itemSize junk h1 h2 m0 m' total Hn Hb Hi Hs Hh Hr.
  apply (boolean_index_right n mask strideB val inp strideV out itemSize Hn Hb) with (junk := junk) (h1 := h1) (h2 := h2);
    [lia| |exact Hh|exact Hr].
  intros E. right. destruct Hs; [contradiction|assumption].
Qed.
Print Assumptions C21_mask_getitem_partial.

Example C21_nonvacuous : exists m' total,
  boolean_index 3 (fun _ => 1) 1 (fun a => a) 0 16 0 16 (fun _ => 77) Alone Alone (fun _ => -1) m' total /\ total = 3 /\ m' 16 = 16.
Proof.
  eexists. exists 3. split; [|split; [reflexivity|]].
  - eexists. split; [reflexivity|]. cbv zeta. split; reflexivity.
  - reflexivity.
Qed.

(** The full claim fails for item sizes other than 1, 2, 4, 8 (complex128, strings, records) on a strided value array: the
    tail loop steps the OUTPUT by the value stride.  Three complex128 (16 bytes) with stride 32, mask all True: slot 1 of
    the result is never written, and the second element is stored past it. *)
Theorem C21_mask_getitem_refuted : ~ (forall (n : Z) mask strideB (val : Z -> Z) inp strideV out itemSize junk m0 m' total,
  0 <= n -> (forall i, 0 <= mask i < 256) -> 0 < itemSize -> 0 < strideV ->
  boolean_index n mask strideB val inp strideV out itemSize junk Alone Alone m0 m' total ->
  mask_result n mask strideB val inp strideV out itemSize m0 m' total).
Proof.
  intros H.
  set (m' := run_ops 0 (copy_prog (mkMC (fun _ => 1) 1 (fun a : Z => a) 0 32 0 16 (snd (prefix_sums 1 (run_ops tt (count_prog (fun _ => 1) 1 0 3) (fun _ => 0))))) 0 3) (fun _ => -1)).
  assert (Hbi : boolean_index 3 (fun _ => 1) 1 (fun a : Z => a) 0 32 0 16 (fun _ => 0) Alone Alone (fun _ => -1) m' 3).
  { eexists. split; [reflexivity|]. cbv zeta. split; reflexivity. }
  apply H in Hbi; [|lia|intros; lia|lia|lia]. destruct Hbi as (S & P & _ & A & _).
  rewrite (picks_unique _ _ _ _ _ P (sels_picks _ _ _)) in A. specialize (A 1%nat 1 eq_refl).
  assert (E : m' 16 = -1) by reflexivity. replace (0 + Z.of_nat 1 * 16) with 16 in A by lia. rewrite E in A. lia.
Qed.
Print Assumptions C21_mask_getitem_refuted.

(** ... and it writes outside the result buffer of 3 * 16 bytes: the third element lands at byte 64 *)
Theorem C21_out_of_bounds_write_refuted : ~ (forall (n : Z) mask strideB (val : Z -> Z) inp strideV out itemSize junk m0 m' total a,
  0 <= n -> (forall i, 0 <= mask i < 256) -> 0 < itemSize -> 0 < strideV ->
  boolean_index n mask strideB val inp strideV out itemSize junk Alone Alone m0 m' total ->
  ~ (out <= a < out + total * itemSize) -> m' a = m0 a).
Proof.
  intros H.
  set (m' := run_ops 0 (copy_prog (mkMC (fun _ => 1) 1 (fun a : Z => a) 0 32 0 16 (snd (prefix_sums 1 (run_ops tt (count_prog (fun _ => 1) 1 0 3) (fun _ => 0))))) 0 3) (fun _ => -1)).
  assert (Hbi : boolean_index 3 (fun _ => 1) 1 (fun a : Z => a) 0 32 0 16 (fun _ => 0) Alone Alone (fun _ => -1) m' 3).
  { eexists. split; [reflexivity|]. cbv zeta. split; reflexivity. }
  specialize (H 3 (fun _ => 1) 1 (fun a => a) 0 32 0 16 (fun _ => 0) (fun _ => -1) m' 3 64 ltac:(lia) ltac:(intros; lia) ltac:(lia) ltac:(lia) Hbi ltac:(lia)).
  assert (E : m' 64 = 64) by reflexivity. rewrite E in H. lia.
Qed.
Print Assumptions C21_out_of_bounds_write_refuted.

(** A C-contiguous two-dimensional array of r rows and c columns passes the check at getitem.cpp:232-239, but both strides
    are then taken from dimension 0 (getitem.cpp:205, 558-559), i.e. one row: the elements visited are not the flattened
    array's.  2x2, mask all True: only the first elements of the rows (and memory past the mask) are looked at. *)
Theorem C21_two_dimensional_refuted : ~ (forall (r c : Z) mask (val : Z -> Z) inp out itemSize junk m0 m' total,
  0 < r -> 0 < c -> (forall i, 0 <= mask i < 256) -> itemSize = 8 ->
  boolean_index (r * c) mask (c * 1) val inp (c * itemSize) out itemSize junk Alone Alone m0 m' total ->
  mask_result (r * c) mask 1 val inp itemSize out itemSize m0 m' total).
Proof.
  intros H.
  set (mask := fun i => if (0 <=? i) && (i <? 4) then 1 else 0).
  set (counts := run_ops tt (count_prog mask (2 * 1) 0 (2 * 2)) (fun _ => 0)).
  set (m' := run_ops 0 (copy_prog (mkMC mask (2 * 1) (fun a : Z => a) 0 (2 * 8) 0 8 (snd (prefix_sums 1 counts))) 0 (2 * 2)) (fun _ => -1)).
  assert (Hbi : boolean_index (2 * 2) mask (2 * 1) (fun a : Z => a) 0 (2 * 8) 0 8 (fun _ => 0) Alone Alone (fun _ => -1) m' 2).
  { exists counts. split; [reflexivity|]. cbv zeta. split; reflexivity. }
  apply H in Hbi; [|lia|lia|intros i; unfold mask; destruct (_ && _); lia|reflexivity].
  destruct Hbi as (S & P & T & _). rewrite (picks_unique _ _ _ _ _ P (sels_picks _ _ _)) in T.
  assert (E : length (sels (2 * 2) mask 1) = 4%nat) by reflexivity. rewrite E in T. lia.
Qed.
Print Assumptions C21_two_dimensional_refuted.
