(** Mask_Proofs.v *)
From Verif Require Import Base Threads_Model Threads_Proofs Threads_Counter_Proofs Jobs_Model Jobs_Proofs Jobs_Call_Proofs Reduce_Proofs Mask_Model.

(** number of i in [a,b) with p i *)
Definition countp (p : Z -> bool) (a b : Z) : Z := Z.of_nat (length (filter p (zrange a b))).

Lemma countp_nil p a b : b <= a -> countp p a b = 0.
Proof. intros. unfold countp. rewrite zrange_nil by assumption. reflexivity. Qed.

Lemma countp_app p a b c : a <= b <= c -> countp p a c = countp p a b + countp p b c.
Proof. intros. unfold countp. rewrite (zrange_split a b c) by assumption. rewrite filter_app, app_length. lia. Qed.

Lemma countp_nonneg p a b : 0 <= countp p a b.
Proof. unfold countp. lia. Qed.

Lemma countp_1 p a : countp p a (a + 1) = if p a then 1 else 0.
Proof. unfold countp. rewrite zrange_cons, zrange_nil by lia. simpl. destruct (p a); reflexivity. Qed.

Lemma fold_count (p : Z -> bool) a b (r : Z) : fold_left (fun r i => if p i then r + 1 else r) (zrange a b) r = r + countp p a b.
Proof.
  unfold countp. generalize (zrange a b). intros l. revert r. induction l as [|i l IH]; intros r; cbn [fold_left filter].
  - cbn. lia.
  - rewrite IH. destruct (p i); cbn [length]; lia.
Qed.

(** ---- SumBooleanMask ---- *)
Definition nz (data : Z -> Z) (i : Z) : bool := negb (data i =? 0).
Definition byte_data (data : Z -> Z) : Prop := forall i, 0 <= data i < 256.

Fixpoint zsumf (f : Z -> Z) (k : nat) : Z := match k with O => 0 | S k' => zsumf f k' + f (Z.of_nat k') end.

Lemma horizontal_sum_spec (x : Z -> Z) : (forall l, 0 <= l < 32 -> 0 <= x l <= 255) ->
  horizontal_sum x = zsumf x 32.
Proof.
  intros H.
  assert (Hc : forall l, 0 <= l < 16 -> 0 <= widen_add 16 8 x l <= 510 /\
     widen_add 16 8 x l = x (l / 8 * 16 + l mod 8) + x (l / 8 * 16 + 8 + l mod 8)).
  { intros l Hl. unfold widen_add. change (2 * 8) with 16.
    pose proof (H (l / 8 * 16 + l mod 8) ltac:(lia)). pose proof (H (l / 8 * 16 + 8 + l mod 8) ltac:(lia)).
    change (2 ^ 16) with 65536. rewrite Z.mod_small by lia. lia. }
  set (c16 := widen_add 16 8 x) in *.
  assert (Hd : forall l, 0 <= l < 8 -> 0 <= widen_add 32 4 c16 l <= 1020 /\
     widen_add 32 4 c16 l = c16 (l / 4 * 8 + l mod 4) + c16 (l / 4 * 8 + 4 + l mod 4)).
  { intros l Hl. unfold widen_add. change (2 * 4) with 8.
    pose proof (Hc (l / 4 * 8 + l mod 4) ltac:(lia)). pose proof (Hc (l / 4 * 8 + 4 + l mod 4) ltac:(lia)).
    change (2 ^ 32) with 4294967296. rewrite Z.mod_small by lia. lia. }
  set (c32 := widen_add 32 4 c16) in *.
  assert (He : forall l, 0 <= l < 4 ->
     widen_add 64 2 c32 l = c32 (l / 2 * 4 + l mod 2) + c32 (l / 2 * 4 + 2 + l mod 2)).
  { intros l Hl. unfold widen_add. change (2 * 2) with 4.
    pose proof (Hd (l / 2 * 4 + l mod 2) ltac:(lia)). pose proof (Hd (l / 2 * 4 + 2 + l mod 2) ltac:(lia)).
    change (2 ^ 64) with 18446744073709551616. rewrite Z.mod_small by lia. lia. }
  unfold horizontal_sum. fold c16. fold c32.
  rewrite (He 0), (He 1), (He 2), (He 3) by lia.
  repeat match goal with |- context [c32 ?a] => let v := eval vm_compute in a in change a with v;
     rewrite (proj2 (Hd v ltac:(lia))) end.
  repeat match goal with |- context [c16 ?a] => let v := eval vm_compute in a in change a with v;
     rewrite (proj2 (Hc v ltac:(lia))) end.
  repeat match goal with |- context [x (?a + ?b)] => let v := eval vm_compute in (a + b) in change (a + b) with v end.
  unfold zsumf.
  repeat match goal with |- context [Z.of_nat ?a] => let v := eval vm_compute in (Z.of_nat a) in change (Z.of_nat a) with v end.
  lia.
Qed.

Lemma zsumf_ext f g k : (forall i, 0 <= i < Z.of_nat k -> f i = g i) -> zsumf f k = zsumf g k.
Proof. induction k as [|k IH]; intros H; [reflexivity|]. cbn [zsumf]. rewrite IH, H by (intros; try apply H; lia). reflexivity. Qed.

Lemma zsumf_add f g k : zsumf (fun i => f i + g i) k = zsumf f k + zsumf g k.
Proof. induction k as [|k IH]; cbn [zsumf]; lia. Qed.

Lemma zsumf_count data a (k : nat) : byte_data data ->
  zsumf (fun l => cstyle (data (a + l))) k = countp (nz data) a (a + Z.of_nat k).
Proof.
  intros Hb. induction k as [|k IH].
  - cbn. rewrite countp_nil; lia.
  - cbn [zsumf]. rewrite IH. rewrite (countp_app _ a (a + Z.of_nat k) (a + Z.of_nat (S k))) by lia.
    replace (a + Z.of_nat (S k)) with (a + Z.of_nat k + 1) by lia. rewrite countp_1. f_equal.
    unfold cstyle, nz. pose proof (Hb (a + Z.of_nat k)). destruct (Z.eqb_spec (data (a + Z.of_nat k)) 0); cbn [negb]; lia.
Qed.

Lemma inner_loop_spec data i iters : byte_data data -> 0 <= iters <= 255 ->
  (forall l, 0 <= inner_loop data i iters l <= iters) /\
  zsumf (inner_loop data i iters) 32 = countp (nz data) (32 * i) (32 * (i + iters)).
Proof.
  intros Hb [H0 H1]. revert H1. pattern iters. apply natlike_ind; [| |exact H0]; clear iters H0.
  - intros _. split.
    + intros l. unfold inner_loop. rewrite zrange_nil by lia. cbn. lia.
    + unfold inner_loop. rewrite (zrange_nil 0 0) by lia. replace (i + 0) with i by lia. rewrite countp_nil by lia. reflexivity.
  - intros k Hk IH Hk1. destruct (IH ltac:(lia)) as [IH1 IH2]. replace (Z.succ k) with (k + 1) by lia.
    assert (E : inner_loop data i (k + 1) = add8 (inner_loop data i k) (fun l => cstyle (data (32 * (i + k) + l)))).
    { unfold inner_loop. rewrite zrange_snoc by lia. rewrite fold_left_app. reflexivity. }
    assert (E2 : forall l, inner_loop data i (k + 1) l = inner_loop data i k l + cstyle (data (32 * (i + k) + l))).
    { intros l. rewrite E. unfold add8. pose proof (IH1 l). pose proof (Hb (32 * (i + k) + l)). unfold cstyle.
      change (2 ^ 8) with 256. apply Z.mod_small. lia. }
    split.
    + intros l. rewrite E2. pose proof (IH1 l). pose proof (Hb (32 * (i + k) + l)). unfold cstyle. lia.
    + rewrite (zsumf_ext _ _ 32 (fun l _ => E2 l)). rewrite zsumf_add, IH2, zsumf_count by assumption.
      rewrite (countp_app _ (32 * i) (32 * (i + k)) (32 * (i + (k + 1)))) by lia. f_equal. f_equal. lia.
Qed.

Lemma outer_loop_spec fuel data vlen i r : byte_data data -> 0 <= i <= vlen -> (Z.to_nat (vlen - i) <= fuel)%nat ->
  outer_loop fuel data vlen i r = r + countp (nz data) (32 * i) (32 * vlen).
Proof.
  intros Hb. revert i r. induction fuel as [|fuel IH]; intros i r Hi Hf; cbn [outer_loop].
  - replace i with vlen by lia. rewrite countp_nil by lia. lia.
  - destruct (Z.ltb_spec i vlen) as [Hlt|Hge].
    + cbv zeta. set (iters := if vlen - i >? 255 then 255 else vlen - i).
      assert (Hit : 1 <= iters <= 255 /\ i + iters <= vlen) by (unfold iters; destruct (Z.gtb_spec (vlen - i) 255); lia).
      clearbody iters. destruct (inner_loop_spec data i iters Hb ltac:(lia)) as [H1 H2].
      rewrite IH by lia. rewrite horizontal_sum_spec by (intros l _; specialize (H1 l); lia). rewrite H2.
      rewrite (countp_app _ (32 * i) (32 * (i + iters)) (32 * vlen)) by lia. lia.
    + replace i with vlen by lia. rewrite countp_nil by lia. lia.
Qed.

Lemma countp_ext p q a b : (forall i, a <= i < b -> p i = q i) -> countp p a b = countp q a b.
Proof.
  intros H. unfold countp. f_equal. f_equal. apply filter_ext_in. intros i Hi. apply H. apply zrange_In, Hi.
Qed.

Lemma sum_mask_spec data len stride : byte_data data -> 0 <= len ->
  SumBooleanMask data len stride = countp (fun i => nz data (i * stride)) 0 len.
Proof.
  intros Hb Hl. unfold SumBooleanMask. destruct (Z.ltb_spec len 0); [lia|].
  destruct (Z.eqb_spec stride 1) as [->|Hs].
  - cbv zeta. rewrite (fold_count (nz data)). rewrite outer_loop_spec by (try assumption; lia).
    replace (len / 32 * 32) with (32 * (len / 32)) by lia. replace (32 * 0) with 0 by lia.
    rewrite Z.add_0_l, <- countp_app by lia. apply countp_ext. intros. f_equal. lia.
  - rewrite (fold_count (fun i => nz data (i * stride))). lia.
Qed.

(** ---- counting phase ---- *)
Definition sel (mask : Z -> Z) (sB : Z) (i : Z) : bool := negb (mask (i * sB) =? 0).

Lemma countp_shift p a n : countp (fun i => p (a + i)) 0 n = countp p a (a + n).
Proof.
  unfold countp. replace (zrange a (a + n)) with (zrange (a + 0) (a + n)) by (f_equal; lia).
  rewrite <- map_zrange_shift. f_equal. generalize (zrange 0 n). intros l.
  induction l as [|i l IH]; [reflexivity|]. cbn [map filter]. destruct (p (a + i)); cbn [length]; lia.
Qed.

Lemma sum_mask_piece mask sB st len : byte_data mask -> 0 <= len ->
  SumBooleanMask (fun i => mask (st * sB + i)) len sB = countp (sel mask sB) st (st + len).
Proof.
  intros Hb Hl. rewrite sum_mask_spec; [|intros i; apply Hb|assumption].
  rewrite <- countp_shift. apply countp_ext. intros i Hi. unfold nz, sel. do 3 f_equal. lia.
Qed.

Lemma count_phase mask sB n T zz m0 sched m' :
  byte_data mask -> 0 <= n -> 0 <= T ->
  jreturned (count_prog mask sB) tt ChunkMode n T zz m0 sched m' ->
  forall w, 0 <= w < BL n -> m' w = countp (sel mask sB) (CH * w) (CH * w + blen n w).
Proof.
  intros Hb Hn HT Hr w Hw.
  set (f := fun a => countp (sel mask sB) (CH * a) (CH * a + blen n a)).
  assert (HCH : forall a, CH * a / WORK_ITEM_CHUNK = a).
  { intros a. change WORK_ITEM_CHUNK with CH. rewrite CH_val. lia. }
  destruct (jobs_rule (count_prog mask sB) tt ChunkMode n T zz m0 HT f (fun _ => True)
     (fun _ _ _ _ => True) (fun st _ _ => Some (st / WORK_ITEM_CHUNK))) with (sched := sched) (m' := m') as (_ & H & _).
  - exact I.
  - auto.
  - intros w' _. cbn. exact I.
  - intros w' k op l m Hv. unfold valid in Hv. cbn [w0 tgt piece] in *. intros Hop _ _. cbv zeta.
    destruct k as [|k]; [|destruct k; discriminate]. cbn in Hop. injection Hop as <-. cbn [fst snd].
    rewrite HCH. split; [exact I|].
    assert (Hval : SumBooleanMask (fun i => mask (CH * w' * sB + i)) (blen n w') sB = f w').
    { unfold f. apply sum_mask_piece; [assumption|]. pose proof (blen_pos n w' ltac:(lia)). lia. }
    rewrite Hval. split; reflexivity.
  - exact Hr.
  - apply (H w); [unfold valid; cbn; lia|]. unfold cell_of. cbn [piece]. exists 0%nat. split; [cbn; lia|].
    now rewrite HCH.
Qed.

Lemma prefix_sums_spec counts k : 0 <= k ->
  let r := prefix_sums k counts in
  fst r = zsumf counts (Z.to_nat k) /\
  (forall w, 0 <= w < k -> snd r w = zsumf counts (Z.to_nat w)) /\
  (forall w, ~ (0 <= w < k) -> snd r w = counts w).
Proof.
  revert k. apply natlike_ind.
  - cbn. unfold prefix_sums. rewrite zrange_nil by lia. cbn. repeat split; intros; lia.
  - intros k Hk (IH1 & IH2 & IH3). cbv zeta in *. replace (Z.succ k) with (k + 1) by lia.
    unfold prefix_sums in *. rewrite zrange_snoc by lia. rewrite fold_left_app. cbn [fold_left fst snd].
    set (r := fold_left _ (zrange 0 k) (0, counts)) in *.
    split; [|split].
    + rewrite IH1. replace (Z.to_nat (k + 1)) with (S (Z.to_nat k)) by lia. cbn [zsumf]. rewrite Z2Nat.id by lia.
      reflexivity.
    + intros w Hw. destruct (Z.eq_dec w k) as [->|Hne].
      * rewrite zupd_eq. exact IH1.
      * rewrite zupd_neq by assumption. apply IH2. lia.
    + intros w Hw. rewrite zupd_neq by lia. apply IH3. lia.
Qed.

Lemma zsumf_chunks p n (k : nat) : 0 <= n -> Z.of_nat k <= BL n ->
  zsumf (fun w => countp p (CH * w) (CH * w + blen n w)) k = countp p 0 (Z.min n (CH * Z.of_nat k)).
Proof.
  intros Hn. induction k as [|k IH]; intros Hk.
  - cbn. rewrite countp_nil by lia. reflexivity.
  - cbn [zsumf]. rewrite IH by lia.
    assert (Hb : blen n (Z.of_nat k) = Z.min CH (n - CH * Z.of_nat k)).
    { unfold blen. rewrite land_mask. unfold BL in *. rewrite CH_val in *.
      destruct (Z.eqb_spec (Z.of_nat k + 1) ((n + (16384 - 1)) / 16384)) as [E1|E1].
      - destruct (negb (n mod 16384 =? 0)) eqn:E2; lia.
      - lia. }
    assert (Hlt : CH * Z.of_nat k < n) by (unfold BL in Hk; rewrite CH_val in *; lia).
    rewrite Hb. replace (Z.min n (CH * Z.of_nat k)) with (CH * Z.of_nat k) by lia.
    rewrite <- countp_app by (rewrite CH_val in *; lia). f_equal. rewrite CH_val in *. lia.
Qed.

(** ---- lists: position of selected elements ---- *)
Lemma filter_firstn_nth {A} (p : A -> bool) l k i : nth_error l k = Some i -> p i = true ->
  nth_error (filter p l) (length (filter p (firstn k l))) = Some i.
Proof.
  revert l; induction k as [|k IH]; intros [|a l] H Hp; try discriminate.
  - injection H as ->. cbn. rewrite Hp. reflexivity.
  - cbn in H. cbn [firstn filter]. destruct (p a); cbn [length nth_error]; apply IH; assumption.
Qed.

Lemma filter_nth_inv {A} (p : A -> bool) l c i : nth_error (filter p l) c = Some i ->
  exists k, nth_error l k = Some i /\ p i = true /\ length (filter p (firstn k l)) = c.
Proof.
  revert c; induction l as [|a l IH]; intros c H; [destruct c; discriminate|].
  cbn [filter] in H. destruct (p a) eqn:E.
  - destruct c as [|c].
    + injection H as ->. exists 0%nat. auto.
    + cbn in H. destruct (IH c H) as (k & H1 & H2 & H3). exists (S k). cbn. rewrite E. cbn. auto.
  - destruct (IH c H) as (k & H1 & H2 & H3). exists (S k). cbn. rewrite E. auto.
Qed.

(** ---- copy phase ---- *)
Lemma load64_val b : load64 b = b 0 + b 1 * 256 + b 2 * 65536 + b 3 * 16777216 + b 4 * 4294967296 +
  b 5 * 1099511627776 + b 6 * 281474976710656 + b 7 * 72057594037927936.
Proof.
  unfold load64. change (zrange 0 8) with [0; 1; 2; 3; 4; 5; 6; 7]. cbn [fold_left].
  change (2 ^ (8 * 0)) with 1. change (2 ^ (8 * 1)) with 256. change (2 ^ (8 * 2)) with 65536.
  change (2 ^ (8 * 3)) with 16777216. change (2 ^ (8 * 4)) with 4294967296. change (2 ^ (8 * 5)) with 1099511627776.
  change (2 ^ (8 * 6)) with 281474976710656. change (2 ^ (8 * 7)) with 72057594037927936. lia.
Qed.

Lemma load64_byte b j : (forall i, 0 <= b i < 256) -> 0 <= j < 8 ->
  Z.land (Z.shiftr (load64 b) (8 * j)) 255 = b j.
Proof.
  intros Hb Hj. change 255 with (Z.ones 8). rewrite Z.land_ones by lia. rewrite Z.shiftr_div_pow2 by lia.
  rewrite load64_val. change (2 ^ 8) with 256.
  pose proof (Hb 0); pose proof (Hb 1); pose proof (Hb 2); pose proof (Hb 3); pose proof (Hb 4); pose proof (Hb 5);
    pose proof (Hb 6); pose proof (Hb 7). clear Hb.
  assert (Hc : j = 0 \/ j = 1 \/ j = 2 \/ j = 3 \/ j = 4 \/ j = 5 \/ j = 6 \/ j = 7) by lia. clear Hj.
  destruct Hc as [->|[->|[->|[->|[->|[->|[->| ->]]]]]]].
  - change (2 ^ (8 * 0)) with 1. lia.
  - change (2 ^ (8 * 1)) with 256. lia.
  - change (2 ^ (8 * 2)) with 65536. lia.
  - change (2 ^ (8 * 3)) with 16777216. lia.
  - change (2 ^ (8 * 4)) with 4294967296. lia.
  - change (2 ^ (8 * 5)) with 1099511627776. lia.
  - change (2 ^ (8 * 6)) with 281474976710656. lia.
  - change (2 ^ (8 * 7)) with 72057594037927936. lia.
Qed.

Lemma load64_zero b : (forall i, 0 <= b i < 256) -> load64 b = 0 -> forall j, 0 <= j < 8 -> b j = 0.
Proof.
  intros Hb H j Hj. rewrite <- (load64_byte b j Hb Hj), H. rewrite Z.shiftr_0_l. reflexivity.
Qed.

Section CopyP.
  Context {V : Type} (q : maskcopy V).
  Hypothesis Hmask : byte_data (mc_mask q).
  Hypothesis Htail : mc_strideB q = 1 -> tail_adv q = mc_itemSize q.
  Hypothesis Hisz : 0 < mc_itemSize q.

  Notation selr st := (fun i => sel (mc_mask q) (mc_strideB q) (st + i)).

  (** the relative element numbers the callback looks at, in order *)
  Definition idxs (st len : Z) : list Z :=
    if mc_strideB q =? 1 then
      flat_map (fun i => if negb (load64 (fun j => mc_mask q (st + 8 * i + j)) =? 0)
                         then map (fun j => 8 * i + j) (zrange 0 8) else []) (zrange 0 (len / 8))
      ++ zrange (8 * (len / 8)) len
    else zrange 0 len.

  Definition elem_op (st i : Z) : micro Z V := op_elem q st i (mc_itemSize q) (selr st i).

  Lemma copy_prog_eq st len : copy_prog q st len = op_enter q st :: map (elem_op st) (idxs st len).
  Proof.
    unfold copy_prog, idxs. f_equal. destruct (Z.eqb_spec (mc_strideB q) 1) as [E|E].
    - rewrite map_app. f_equal.
      + induction (zrange 0 (len / 8)) as [|i l IH]; [reflexivity|]. cbn [flat_map]. rewrite map_app, <- IH. f_equal.
        unfold block_ops. cbv zeta. destruct (negb _); [|reflexivity]. rewrite map_map. apply map_ext_in.
        intros j Hj. apply zrange_In in Hj. unfold elem_op. f_equal.
        rewrite load64_byte by (try assumption; intros; apply Hmask).
        unfold sel. rewrite E. do 3 f_equal; lia.
      + apply map_ext. intros i. unfold elem_op. rewrite Htail by assumption. f_equal. unfold sel. rewrite E. do 3 f_equal; lia.
    - apply map_ext. intros i. unfold elem_op. f_equal. unfold sel. do 3 f_equal; lia.
  Qed.

  Lemma filter_idxs st len : 0 <= len -> filter (selr st) (idxs st len) = filter (selr st) (zrange 0 len).
  Proof.
    intros Hl. unfold idxs. destruct (Z.eqb_spec (mc_strideB q) 1) as [E|E]; [|reflexivity].
    rewrite (zrange_split 0 (8 * (len / 8)) len) by lia. rewrite !filter_app. f_equal.
    assert (Hk : 0 <= len / 8) by lia. revert Hk. generalize (len / 8). apply natlike_ind.
    - reflexivity.
    - intros k Hk IH. replace (Z.succ k) with (k + 1) by lia. rewrite zrange_snoc by lia.
      rewrite flat_map_app, filter_app, IH. rewrite (zrange_split 0 (8 * k) (8 * (k + 1))) by lia.
      rewrite filter_app. f_equal. cbn [flat_map]. rewrite app_nil_r.
      replace (zrange (8 * k) (8 * (k + 1))) with (zrange (8 * k + 0) (8 * k + 8)) by (f_equal; lia).
      rewrite <- map_zrange_shift.
      destruct (Z.eqb_spec (load64 (fun j => mc_mask q (st + 8 * k + j))) 0) as [H0|H0]; cbn [negb]; [|reflexivity].
      pose proof (load64_zero _ (fun j => Hmask (st + 8 * k + j)) H0) as Hz. cbv beta in Hz.
      assert (Hf : forall l, (forall j, In j l -> 0 <= j < 8) -> filter (selr st) (map (fun j => 8 * k + j) l) = []).
      { induction l as [|j l IHl]; intros Hj; [reflexivity|]. cbn [map filter].
        rewrite IHl by (intros; apply Hj; right; assumption).
        unfold sel. rewrite E. replace ((st + (8 * k + j)) * 1) with (st + 8 * k + j) by lia.
        rewrite Hz by (apply Hj; left; reflexivity). reflexivity. }
      rewrite Hf; [reflexivity|]. intros j Hj. apply zrange_In in Hj. lia.
  Qed.

  (** address of the c-th selected element of the piece starting at st *)
  Definition slot (st : Z) (c : nat) : Z :=
    mc_out q + (mc_offs q (st / WORK_ITEM_CHUNK) + Z.of_nat c) * mc_itemSize q.
  Definition value (st i : Z) : V := mc_val q (mc_in q + (st + i) * mc_strideV q).

  Definition rankin (st len : Z) (j : nat) : nat := length (filter (selr st) (firstn j (idxs st len))).

  Definition c_locok (st len : Z) (k : nat) (out : Z) : Prop :=
    match k with O => True | S j => out = slot st (rankin st len j) end.
  Definition c_wcell (st len : Z) (k : nat) : option Z :=
    match k with
    | O => None
    | S j => match nth_error (idxs st len) j with
             | Some i => if selr st i then Some (slot st (rankin st len j)) else None
             | None => None end
    end.

  Lemma firstn_snoc {A} (l : list A) j i : nth_error l j = Some i -> firstn (S j) l = firstn j l ++ [i].
  Proof.
    revert l; induction j as [|j IH]; intros [|a l] H; try discriminate.
    - injection H as ->. reflexivity.
    - cbn in H. cbn [firstn app]. f_equal. apply IH, H.
  Qed.

  (** one micro-operation of the copy *)
  Lemma copy_op_ok (f : Z -> V) st len : 0 <= len ->
    (forall c i, nth_error (filter (selr st) (zrange 0 len)) c = Some i -> f (slot st c) = value st i) ->
    forall k op l m,
    nth_error (copy_prog q st len) k = Some op -> c_locok st len k l ->
    let r := op l m in
    c_locok st len (S k) (fst r) /\
    match snd r with Some (a, v) => v = f a /\ c_wcell st len k = Some a | None => c_wcell st len k = None end.
  Proof.
    intros Hlen Hf k op l m Hop Hl. rewrite copy_prog_eq in Hop. cbv zeta. destruct k as [|j].
    - injection Hop as <-. unfold op_enter. cbn [fst snd c_locok c_wcell].
      split; [unfold slot, rankin; cbn; lia|reflexivity].
    - cbn [nth_error] in Hop. rewrite nth_error_map in Hop.
      destruct (nth_error (idxs st len) j) as [i|] eqn:Ei; [|discriminate]. injection Hop as <-.
      cbn [c_locok c_wcell] in *. rewrite Ei. unfold elem_op, op_elem.
      assert (Hr : rankin st len (S j) = (rankin st len j + if selr st i then 1 else 0)%nat).
      { unfold rankin. rewrite (firstn_snoc _ _ _ Ei), filter_app, app_length. cbn [filter].
        destruct (selr st i); reflexivity. }
      rewrite Hr. destruct (selr st i) eqn:Es; cbn [fst snd].
      + split; [subst l; unfold slot; lia|].
        assert (Hv : mc_val q (mc_in q + st * mc_strideV q + i * mc_strideV q) = f l).
        { subst l. rewrite (Hf _ i); [unfold value; f_equal; lia|].
          rewrite <- filter_idxs by assumption. apply (filter_firstn_nth _ _ _ _ Ei Es). }
        split; [exact Hv|]. now rewrite Hl.
      + split; [subst l; unfold slot; lia|reflexivity].
  Qed.

  Lemma copy_cells st len a : 0 <= len ->
    (exists k, (k < length (copy_prog q st len))%nat /\ c_wcell st len k = Some a) <->
    (exists c i, nth_error (filter (selr st) (zrange 0 len)) c = Some i /\ a = slot st c).
  Proof.
    intros Hlen. rewrite copy_prog_eq. split.
    - intros (k & Hk & Hw). destruct k as [|j]; [discriminate|]. cbn [c_wcell] in Hw.
      destruct (nth_error (idxs st len) j) as [i|] eqn:Ei; [|discriminate].
      destruct (selr st i) eqn:Es; [|discriminate]. injection Hw as <-.
      exists (rankin st len j), i. split; [|reflexivity].
      rewrite <- filter_idxs by assumption. apply (filter_firstn_nth _ _ _ _ Ei Es).
    - intros (c & i & Hc & ->). rewrite <- filter_idxs in Hc by assumption.
      destruct (filter_nth_inv _ _ _ _ Hc) as (k & H1 & H2 & H3).
      exists (S k). split.
      + cbn [length]. rewrite map_length. assert (k < length (idxs st len))%nat; [|lia].
        apply nth_error_Some. congruence.
      + cbn [c_wcell]. rewrite H1, H2. unfold rankin. now rewrite H3.
  Qed.

  (** threaded copy, for any chunk offsets *)
  Lemma copy_phase n T zz m0 sched m' (f : Z -> V) : 0 <= n -> 0 <= T ->
    (forall w c i, 0 <= w < BL n -> nth_error (filter (selr (CH * w)) (zrange 0 (blen n w))) c = Some i ->
        f (slot (CH * w) c) = value (CH * w) i) ->
    jreturned (copy_prog q) 0 ChunkMode n T zz m0 sched m' ->
    (forall w c i, 0 <= w < BL n -> nth_error (filter (selr (CH * w)) (zrange 0 (blen n w))) c = Some i ->
        m' (slot (CH * w) c) = value (CH * w) i) /\
    (forall a, (forall w c, 0 <= w < BL n -> (c < length (filter (selr (CH * w)) (zrange 0 (blen n w))))%nat ->
        a <> slot (CH * w) c) -> m' a = m0 a).
  Proof.
    intros Hn HT Hf Hr.
    destruct (jobs_rule (copy_prog q) 0 ChunkMode n T zz m0 HT f (fun _ => True) c_locok c_wcell)
      with (sched := sched) (m' := m') as (_ & H1 & H2).
    - exact I.
    - auto.
    - intros w _. cbn. exact I.
    - intros w k op l m Hv. unfold valid in Hv. cbn [w0 tgt piece] in *. intros Hop _ Hl.
      assert (Hb := blen_pos n w ltac:(lia)).
      destruct (copy_op_ok f (CH * w) (blen n w) ltac:(lia) (fun c i => Hf w c i ltac:(lia)) k op l m Hop Hl) as (A & B).
      cbv zeta. auto.
    - exact Hr.
    - split.
      + intros w c i Hw Hc. rewrite <- (Hf w c i Hw Hc). apply (H1 w); [unfold valid; cbn; lia|].
        unfold cell_of. cbn [piece]. apply copy_cells; [pose proof (blen_pos n w Hw); lia|]. eauto.
      + intros a Ha. apply H2. intros w Hv Hc. unfold valid in Hv. cbn [w0 tgt] in Hv. unfold cell_of in Hc. cbn [piece] in Hc.
        apply copy_cells in Hc; [|pose proof (blen_pos n w ltac:(lia)); lia].
        destruct Hc as (c & i & Hc & ->). apply (Ha w c); [lia| |reflexivity].
        apply nth_error_Some. congruence.
  Qed.

  (** the callback run by one thread over [st, st+len) *)
  Lemma copy_single st len m (f : Z -> V) : 0 <= len ->
    (forall c i, nth_error (filter (selr st) (zrange 0 len)) c = Some i -> f (slot st c) = value st i) ->
    let m' := run_ops 0 (copy_prog q st len) m in
    (forall c i, nth_error (filter (selr st) (zrange 0 len)) c = Some i -> m' (slot st c) = value st i) /\
    (forall a, (forall c, (c < length (filter (selr st) (zrange 0 len)))%nat -> a <> slot st c) -> m' a = m a).
  Proof.
    intros Hlen Hf.
    destruct (alone_rule (copy_prog q st len) 0 m f (fun _ => True) (c_locok st len) (c_wcell st len)) as (_ & G2 & G3); [exact I|exact I|auto| |].
    { intros k op l m1 Hop _ Hl. exact (copy_op_ok f st len Hlen Hf k op l m1 Hop Hl). }
    cbv zeta in *. split.
    - intros c i Hc. rewrite <- (Hf c i Hc).
      destruct (proj2 (copy_cells st len (slot st c) Hlen) (ex_intro _ c (ex_intro _ i (conj Hc eq_refl)))) as (k & Hk & Hw).
      apply (G2 k); assumption.
    - intros a Ha. apply G3. intros j Hj Hw.
      destruct (proj1 (copy_cells st len a Hlen)) as (c & i & Hc & ->); [exists j; split; assumption|].
      apply (Ha c); [|reflexivity]. apply nth_error_Some. congruence.
  Qed.
End CopyP.
