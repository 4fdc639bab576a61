(** Reduce_Props.v - property theorems C10-C13.
    [reduce_seq op x n init] is the specification: fold the elements x 0 .. x (n-1), in order, from init.
    [returned r rd n W zz junk sched p] says: in the interleaving [sched] of a threaded reduction of n elements with
    W workers the caller's WorkMain has returned, and the chunk buffer then holds p. *)
From Verif Require Import Base Threads_Model Threads_Proofs Threads_Live_Proofs Threads_Props Reduce_Model Reduce_Proofs.

Definition reduce_seq {T} (op : T -> T -> T) (x : Z -> T) (n : Z) (init : T) : T :=
  fold_left (fun acc i => op acc (x i)) (zrange 0 n) init.

Definition sum_of (x : Z -> Z) (n : Z) : Z := fold_right Z.add 0 (map x (zrange 0 n)).
Definition prod_of (x : Z -> Z) (n : Z) : Z := fold_right Z.mul 1 (map x (zrange 0 n)).

Definition returned {T} (r : redcall T) (rd : Z -> T) (n W : Z) (zz : bool) (junk : Z -> T) (sched : list Z)
    (p : Z -> T) : Prop :=
  let s := rrun r rd (rstart n W zz junk) sched in
  pcs (eng s) 0 = Returned /\ part s = p.

(** ---------- C12 ---------- *)
Theorem C12_vector_reduce_is_fold :
  forall {T} (op : T -> T -> T),
    (forall x y z, op x (op y z) = op (op x y) z) -> (forall x y, op x y = op y x) ->
    forall (L sz : Z) (rd : Z -> T) (p : Z) (start : T) (n stride : Z),
      0 < L -> 0 < sz -> 0 <= n ->
      ReduceMathOpFast op L sz rd p start n stride = reduce_seq op (fun i => rd (p + i * stride)) n start.
Proof. intros. apply kernel_fold; auto; lia. Qed.
Print Assumptions C12_vector_reduce_is_fold.

(** the vector body really runs: 4 lanes, 19 elements, two unrolled rounds and a tail of three *)
Example C12_nonvacuous :
  ReduceMathOpFast (add_w 64) 4 8 (fun a => a) 0 7 19 8 = 7 + 8 * (18 * 19 / 2) /\
  ReduceMathOpFast Z.max 4 8 (fun a => a) 1000 7 19 (-8) = 1000.
Proof. split; vm_compute; reflexivity. Qed.

(** the kernel reads elements of the array only *)
Lemma reads_elements {T} (op : T -> T -> T) (L sz : Z) (rd rd' : Z -> T) (p p' : Z) (start : T) (n stride : Z) :
      0 < L -> 0 < sz -> 0 <= n ->
      (forall i, 0 <= i < n -> rd (p + i * stride) = rd' (p' + i * stride)) ->
      ReduceMathOpFast op L sz rd p start n stride = ReduceMathOpFast op L sz rd' p' start n stride.
Proof.
  intros HL Hsz Hn H. unfold ReduceMathOpFast.
  destruct (Z.eqb_spec stride 0) as [->|Hs]; cbn [negb].
  { apply fold_left_ext_in. intros a b Hb. apply zrange_In in Hb. f_equal.
    specialize (H b Hb). rewrite !Z.mul_0_r, !Z.add_0_r in H. exact H. }
  assert (Ht : forall i0 s, 0 <= i0 -> tail_loop op rd p stride i0 n s = tail_loop op rd' p' stride i0 n s).
  { intros i0 s Hi. apply fold_left_ext_in. intros a b Hb. apply zrange_In in Hb. f_equal. apply H. lia. }
  destruct (Z.eqb_spec stride sz) as [->|_]; cbn [andb]; [|apply Ht; lia].
  destruct (Z.leb_spec (2 * L) n) as [Hl|Hl]; [|apply Ht; lia].
  set (q := n / (2 * L)).
  assert (Hq : 1 <= q) by (apply Z.div_le_lower_bound; lia).
  assert (Hq2 : 2 * L * q <= n) by (apply Z.mul_div_le; lia).
  rewrite Ht by lia. f_equal.
  (* lanes agree *)
  assert (HV : forall k, k <= q ->
     let m := vec_loop op rd p sz L k (vec_load rd p sz 0, vec_load rd p sz L) in
     let m' := vec_loop op rd' p' sz L k (vec_load rd' p' sz 0, vec_load rd' p' sz L) in
     forall i, 0 <= i < L -> fst m i = fst m' i /\ snd m i = snd m' i).
  { intros k. destruct (Z_lt_le_dec k 1) as [Hk|Hk].
    { intros _. unfold vec_loop. rewrite zrange_nil by lia. cbn. unfold vec_load. intros i Hi. split; apply H; lia. }
    pattern k. apply Zlt_lower_bound_ind with (z := 1); [|exact Hk]. clear k Hk. intros k IH Hk Hkq.
    destruct (Z.eq_dec k 1) as [->|Hne].
    - unfold vec_loop. rewrite zrange_nil by lia. cbn. unfold vec_load. intros i Hi. split; apply H; lia.
    - specialize (IH (k - 1) ltac:(lia) ltac:(lia)). cbv zeta in *. intros i Hi.
      destruct (IH i Hi) as [IH1 IH2].
      unfold vec_loop in *. replace k with (k - 1 + 1) by lia. rewrite zrange_snoc by lia.
      rewrite !fold_left_app.
      set (F := fold_left _ (zrange 1 (k - 1)) (vec_load rd p sz 0, vec_load rd p sz L)) in *.
      set (F' := fold_left _ (zrange 1 (k - 1)) (vec_load rd' p' sz 0, vec_load rd' p' sz L)) in *.
      cbn [fold_left fst snd]. unfold vec_op, vec_load. rewrite IH1, IH2.
      split; f_equal; apply H; nia. }
  specialize (HV q ltac:(lia)). cbv zeta in HV.
  apply fold_left_ext_in. intros a b Hb. apply zrange_In in Hb. f_equal. unfold vec_op.
  destruct (HV b Hb) as [-> ->]. reflexivity.
Qed.
Theorem C12_reads_only_elements :
  forall {T} (op : T -> T -> T) (L sz : Z) (rd rd' : Z -> T) (p : Z) (start : T) (n stride : Z),
      0 < L -> 0 < sz -> 0 <= n ->
      (forall i, 0 <= i < n -> rd (p + i * stride) = rd' (p + i * stride)) ->
      ReduceMathOpFast op L sz rd p start n stride = ReduceMathOpFast op L sz rd' p start n stride.
Proof. intros. now apply reads_elements. Qed.
Print Assumptions C12_reads_only_elements.

(** ---------- C13 ---------- *)
(** Refuted: for every contiguous float32 input of 16 elements or more the kernel reads past its 4-element
    buffer, whatever the data. *)
Theorem C13_float_sum_refuted :
  forall {D U} (up : D -> U) (down : U -> D) (op : U -> U -> U) (rd : Z -> D) (p : Z) (start : D) (n : Z),
    16 <= n -> ReduceMathOpFastUpcast up down op 4 rd p start n 4 = None.
Proof.
  intros. unfold ReduceMathOpFastUpcast. cbn [negb Z.eqb andb].
  change (4 =? 0) with false. change (4 =? 4) with true. cbn [negb andb].
  destruct (Z.leb_spec 16 n); [|lia].
  match goal with |- context [up_loop ?a ?b ?c ?d ?e ?f ?g] => destruct (up_loop a b c d e f g) as [[[m10 m11] m12] m13] end.
  reflexivity.
Qed.
Print Assumptions C13_float_sum_refuted.

(** What holds: shorter or non-contiguous inputs are folded in the wide type and rounded once. *)
Theorem C13_float_sum_partial :
  forall {D U} (up : D -> U) (down : U -> D) (op : U -> U -> U),
    (forall x y, op x y = op y x) ->
    forall (rd : Z -> D) (p : Z) (start : D) (n stride : Z),
    0 <= n -> (n < 16 \/ stride <> 4) ->
    ReduceMathOpFastUpcast up down op 4 rd p start n stride =
    Some (down (reduce_seq op (fun i => up (rd (p + i * stride))) n (up start))).
Proof.
  intros D U up down op Hc rd p start n stride Hn Hs. unfold ReduceMathOpFastUpcast, reduce_seq.
  destruct (Z.eqb_spec stride 0) as [->|H0]; cbn [negb].
  - do 2 f_equal. apply fold_left_ext_in. intros a i _. rewrite Hc, Z.mul_0_r, Z.add_0_r. reflexivity.
  - destruct (Z.eqb_spec stride 4) as [E|_]; cbn [andb].
    + destruct (Z.leb_spec 16 n); [lia|]. do 2 f_equal. apply fold_left_ext_in. intros; apply Hc.
    + do 2 f_equal. apply fold_left_ext_in. intros; apply Hc.
Qed.
Print Assumptions C13_float_sum_partial.

Example C13_nonvacuous :
  ReduceMathOpFastUpcast (fun x : Z => x) (fun x => x) Z.add 4 (fun a => a) 0 5 15 4 = Some (5 + 4 * (14 * 15 / 2)) /\
  ReduceMathOpFastUpcast (fun x : Z => x) (fun x => x) Z.add 4 (fun a => a) 0 5 100 8 = Some (5 + 8 * (99 * 100 / 2)).
Proof. split; vm_compute; reflexivity. Qed.

(** ---------- C10 ---------- *)
(** General form: for an associative, commutative operation whose per-chunk start value adds nothing
    (an identity, or the caller's initial value for an idempotent operation), the threaded result is
    the sequential fold, in every interleaving.  Kernel path (pReduceFunc exists). *)
Lemma C10_general {T} (op : T -> T -> T) (K : @kernel T) inp stride (init : T) special rd n W zz junk wild sched p sz :
  (forall x y z, op x (op y z) = op (op x y) z) -> (forall x y, op x y = op y x) ->
  (forall rd p s n st, 0 <= n -> K rd p s n st = reduce_seq op (fun i => rd (p + i * st)) n s) ->
  (forall l, let v := fold_left (fun acc i => op acc (rd (inp + i * stride))) l init in
             op v (match special with Some e => e | None => init end) = v) ->
  0 < n -> 0 <= W -> 0 < sz ->
  let r := mkRed T inp stride init special K in
  returned r rd n W zz junk sched p ->
  finish_kernel r sz n wild p = reduce_seq op (fun i => rd (inp + i * stride)) n init.
Proof.
  intros Ha Hc HK Habs Hn HW Hsz r [Hr Hp].
  pose proof (returned_parts r rd n W zz HW junk sched Hr) as Hparts. rewrite Hp in Hparts.
  unfold finish_kernel. unfold r at 1. cbn [r_kernel r_init].
  assert (Hch : 0 < red_chunks n) by (unfold red_chunks; change WORK_ITEM_CHUNK with 16384; lia).
  rewrite HK by lia. unfold reduce_seq at 1.
  set (x := fun i => rd (inp + i * stride)). set (s0 := match special with Some e => e | None => init end).
  transitivity (fold_left (fun acc w => op acc (foldx op x (16384 * w) (Z.min n (16384 * w + 16384)) s0))
                          (zrange 0 (red_chunks n)) init).
  - apply fold_left_ext_in. intros a w Hw. apply zrange_In in Hw. f_equal.
    unfold buffer. replace (0 + w * sz) with (w * sz) by lia. rewrite Z_mod_mult.
    replace (0 =? 0) with true by reflexivity.
    destruct (Z.leb_spec 0 (w * sz)); [|nia]. destruct (Z.ltb_spec (w * sz) (red_chunks n * sz)); [|nia].
    cbn [andb]. rewrite Z.div_mul by lia. rewrite Hparts by lia.
    unfold chunk_value. cbn [r_kernel r r_in r_stride]. rewrite HK.
    2: { unfold red_chunks in Hw. change WORK_ITEM_CHUNK with 16384 in Hw. lia. }
    change (start_val r) with s0.
    unfold reduce_seq, foldx. replace (zrange (16384 * w) (Z.min n (16384 * w + 16384)))
      with (zrange (16384 * w + 0) (16384 * w + Z.min 16384 (n - 16384 * w))) by (f_equal; lia).
    rewrite <- map_zrange_shift. generalize (zrange 0 (Z.min 16384 (n - 16384 * w))). intros l.
    generalize s0. induction l as [|i l IH]; intros v; [reflexivity|]. cbn [fold_left map].
    rewrite <- IH. f_equal. f_equal. unfold x. f_equal. lia.
  - unfold reduce_seq. rewrite (combine_chunks op Ha Hc x init s0 Habs n (red_chunks n)) by lia.
    unfold foldx. f_equal. f_equal. unfold red_chunks. change WORK_ITEM_CHUNK with 16384. lia.
Qed.

(** Numpy path (no pReduceFunc, or atop disabled): the same, provided the array is contiguous. *)
Lemma C10_general_numpy {T} (op : T -> T -> T) inp (init : T) special rd n W zz junk wild sched p sz :
  (forall x y z, op x (op y z) = op (op x y) z) -> (forall x y, op x y = op y x) ->
  (forall l, let v := fold_left (fun acc i => op acc (rd (inp + i * sz))) l init in
             op v (match special with Some e => e | None => init end) = v) ->
  0 < n -> 0 <= W -> 0 < sz ->
  let r := mkRed T inp sz init special (numpy_loop op) in
  returned r rd n W zz junk sched p ->
  finish_numpy r sz n wild p = reduce_seq op (fun i => rd (inp + i * sz)) n init.
Proof.
  intros Ha Hc Habs Hn HW Hsz r Hret.
  exact (C10_general op (numpy_loop op) inp sz init special rd n W zz junk wild sched p sz Ha Hc
           (fun _ _ _ _ _ _ => eq_refl) Habs Hn HW Hsz Hret).
Qed.

Lemma wrap_idem w x : 0 < w -> wrap w (wrap w x) = wrap w x.
Proof. intros. unfold wrap. apply Z.mod_mod. pose proof (Z.pow_pos_nonneg 2 w). lia. Qed.

Lemma pow2_pos w : 0 < w -> 0 < 2 ^ w.
Proof. intros. apply Z.pow_pos_nonneg; lia. Qed.

Lemma add_w_assoc w x y z : 0 < w -> add_w w x (add_w w y z) = add_w w (add_w w x y) z.
Proof.
  intros H. pose proof (pow2_pos w H). unfold add_w, wrap.
  rewrite Z.add_mod_idemp_r, Z.add_mod_idemp_l by lia. f_equal; lia.
Qed.
Lemma mul_w_assoc w x y z : 0 < w -> mul_w w x (mul_w w y z) = mul_w w (mul_w w x y) z.
Proof.
  intros H. pose proof (pow2_pos w H). unfold mul_w, wrap.
  rewrite Z.mul_mod_idemp_r, Z.mul_mod_idemp_l by lia. f_equal; lia.
Qed.

Lemma reduce_seq_add w x n init : 0 < w -> 0 <= init < 2 ^ w ->
  reduce_seq (add_w w) x n init = (init + sum_of x n) mod 2 ^ w.
Proof.
  intros Hw. pose proof (pow2_pos w Hw) as Hp. unfold reduce_seq, sum_of. generalize (zrange 0 n). intros l.
  revert init. induction l as [|i l IH]; intros init Hi; cbn [fold_left map fold_right].
  - rewrite Z.add_0_r, Z.mod_small; lia.
  - rewrite IH by (unfold add_w, wrap; apply Z.mod_pos_bound; lia).
    unfold add_w, wrap. rewrite Z.add_mod_idemp_l by lia. f_equal. lia.
Qed.

Lemma reduce_seq_mul w x n init : 0 < w -> 0 <= init < 2 ^ w ->
  reduce_seq (mul_w w) x n init = (init * prod_of x n) mod 2 ^ w.
Proof.
  intros Hw. pose proof (pow2_pos w Hw) as Hp. unfold reduce_seq, prod_of. generalize (zrange 0 n). intros l.
  revert init. induction l as [|i l IH]; intros init Hi; cbn [fold_left map fold_right].
  - rewrite Z.mul_1_r, Z.mod_small; lia.
  - rewrite IH by (unfold mul_w, wrap; apply Z.mod_pos_bound; lia).
    unfold mul_w, wrap. rewrite Z.mul_mod_idemp_l by lia. f_equal. ring.
Qed.

(** sum and product of w-bit integers: kernel path, any stride; start values 0 and 1 per chunk *)
Theorem C10_int_sum_prod :
  forall (w L sz inp stride init n W : Z) (zz : bool) (rd junk wild : Z -> Z) (sched : list Z) (p : Z -> Z),
    0 < w -> 0 < L -> 0 < sz -> 0 <= init < 2 ^ w -> 0 < n -> 0 <= W ->
    let x := fun i => rd (inp + i * stride) in
    (let r := mkRed Z inp stride init (Some 0) (ReduceMathOpFast (add_w w) L sz) in
     returned r rd n W zz junk sched p ->
     finish_kernel r sz n wild p = (init + sum_of x n) mod 2 ^ w) /\
    (let r := mkRed Z inp stride init (Some 1) (ReduceMathOpFast (mul_w w) L sz) in
     returned r rd n W zz junk sched p ->
     finish_kernel r sz n wild p = (init * prod_of x n) mod 2 ^ w).
Proof.
  intros w L sz inp stride init n W zz rd junk wild sched p Hw HL Hsz Hi Hn HW x.
  pose proof (pow2_pos w Hw) as Hp. split; intros r Hret.
  - rewrite <- reduce_seq_add by assumption.
    eapply (C10_general (add_w w)); try eassumption.
    + intros; now apply add_w_assoc.
    + intros; unfold add_w; f_equal; lia.
    + intros. apply kernel_fold; try lia; intros; [now apply add_w_assoc|unfold add_w; f_equal; lia].
    + intros l. cbv zeta. generalize l. intros l'. pattern l'. apply rev_ind.
      * cbn. unfold add_w, wrap. rewrite Z.add_0_r. apply Z.mod_small; lia.
      * intros i l0 _. rewrite fold_left_app. cbn [fold_left]. unfold add_w at 1 3. rewrite Z.add_0_r.
        unfold add_w at 1. apply wrap_idem; assumption.
  - rewrite <- reduce_seq_mul by assumption.
    eapply (C10_general (mul_w w)); try eassumption.
    + intros; now apply mul_w_assoc.
    + intros; unfold mul_w; f_equal; lia.
    + intros. apply kernel_fold; try lia; intros; [now apply mul_w_assoc|unfold mul_w; f_equal; lia].
    + intros l. cbv zeta. generalize l. intros l'. pattern l'. apply rev_ind.
      * cbn. unfold mul_w, wrap. rewrite Z.mul_1_r. apply Z.mod_small; lia.
      * intros i l0 _. rewrite fold_left_app. cbn [fold_left]. unfold mul_w at 1 3. rewrite Z.mul_1_r.
        unfold mul_w at 1. apply wrap_idem; assumption.
Qed.
Print Assumptions C10_int_sum_prod.

(** every associative, commutative, idempotent operation - in particular minimum, maximum, bitwise and/or
    (and logical and/or on 0/1 bytes): kernel path with any stride, numpy path when contiguous *)
Theorem C10_idempotent :
  forall {T} (op : T -> T -> T),
    (forall x y z, op x (op y z) = op (op x y) z) -> (forall x y, op x y = op y x) -> (forall x, op x x = x) ->
  forall (L sz inp stride n W : Z) (init : T) (zz : bool) (rd junk wild : Z -> T) (sched : list Z) (p : Z -> T),
    0 < L -> 0 < sz -> 0 < n -> 0 <= W ->
    (let r := mkRed T inp stride init None (ReduceMathOpFast op L sz) in
     returned r rd n W zz junk sched p ->
     finish_kernel r sz n wild p = reduce_seq op (fun i => rd (inp + i * stride)) n init) /\
    (let r := mkRed T inp sz init None (numpy_loop op) in
     returned r rd n W zz junk sched p ->
     finish_numpy r sz n wild p = reduce_seq op (fun i => rd (inp + i * sz)) n init).
Proof.
  intros T op Ha Hc Hi L sz inp stride n W init zz rd junk wild sched p HL Hsz Hn HW.
  assert (Habs : forall (x : Z -> T) l, op (fold_left (fun acc i => op acc (x i)) l init) init =
                               fold_left (fun acc i => op acc (x i)) l init).
  { intros x l. rewrite Hc. rewrite fold_M' by assumption. rewrite <- M_op by assumption. now rewrite Hi. }
  split; intros r Hret.
  - eapply (C10_general op); try eassumption.
    + intros. apply kernel_fold; auto; lia.
    + intros l. apply (Habs (fun i => rd (inp + i * stride))).
  - eapply (C10_general_numpy op); try eassumption.
    intros l. apply (Habs (fun i => rd (inp + i * sz))).
Qed.
Print Assumptions C10_idempotent.

(** the operations meant *)
Theorem C10_idempotent_ops :
  Forall (fun op : Z -> Z -> Z =>
      (forall x y z, op x (op y z) = op (op x y) z) /\ (forall x y, op x y = op y x) /\ (forall x, op x x = x))
    [Z.min; Z.max; Z.land; Z.lor].
Proof.
  repeat constructor; intros.
  all: try (first [apply Z.min_assoc | apply Z.max_assoc | apply Z.land_assoc | apply Z.lor_assoc
                 | apply Z.min_comm | apply Z.max_comm | apply Z.land_comm | apply Z.lor_comm
                 | apply Z.min_id | apply Z.max_id | apply Z.land_diag | apply Z.lor_diag]).
Qed.

(** For every operation whatsoever (floats included) the result does not depend on the schedule, the number of
    workers, the zigzag direction or the previous content of the chunk buffer. *)
Theorem C10_deterministic :
  forall {T} (r : redcall T) (rd : Z -> T) (n sz : Z) (wild : Z -> T),
    0 < n -> 0 < sz ->
    forall W zz junk sched p W' zz' junk' sched' p', 0 <= W -> 0 <= W' ->
      (forall rd1 rd2, (forall i, 0 <= i < red_chunks n -> rd1 (i * sz) = rd2 (i * sz)) ->
          r_kernel r rd1 0 (r_init r) (red_chunks n) sz = r_kernel r rd2 0 (r_init r) (red_chunks n) sz) ->
      returned r rd n W zz junk sched p -> returned r rd n W' zz' junk' sched' p' ->
      finish_kernel r sz n wild p = finish_kernel r sz n wild p'.
Proof.
  intros T r rd n sz wild Hn Hsz W zz junk sched p W' zz' junk' sched' p' HW HW' HK [Hr Hp] [Hr' Hp'].
  pose proof (returned_parts r rd n W zz HW junk sched Hr) as H1. rewrite Hp in H1.
  pose proof (returned_parts r rd n W' zz' HW' junk' sched' Hr') as H2. rewrite Hp' in H2.
  unfold finish_kernel. apply HK. intros i Hi. unfold buffer.
  destruct (_ && _) eqn:E; [|reflexivity]. rewrite Z.div_mul by lia. rewrite H1, H2 by lia. reflexivity.
Qed.
Print Assumptions C10_deterministic.

Lemma demo_returned {T} (r : redcall T) rd n W zz junk : 0 <= n -> 0 <= W ->
  exists sched p, returned r rd n W zz junk sched p.
Proof.
  intros Hn HW. exists (demo_sched n W), (part (rrun r rd (rstart n W zz junk) (demo_sched n W))).
  split; [|reflexivity]. rewrite rrun_eng. apply demo_returns; assumption.
Qed.

Example C10_nonvacuous :
  exists sched p, let r := mkRed Z 0 8 5 (Some 0) (ReduceMathOpFast (add_w 64) 4 8) in
    returned r (fun _ => 3) 100000 3 true (fun _ => -1) sched p /\ finish_kernel r 8 100000 (fun _ => -1) p = 300005.
Proof.
  destruct (demo_returned (mkRed Z 0 8 5 (Some 0) (ReduceMathOpFast (add_w 64) 4 8)) (fun _ => 3) 100000 3 true
             (fun _ => -1) ltac:(lia) ltac:(lia)) as (sched & p & H).
  exists sched, p. cbv zeta. split; [exact H|].
  assert (Hi : 0 <= 5 < 2 ^ 64) by (split; [lia|reflexivity]).
  destruct (C10_int_sum_prod 64 4 8 0 8 5 100000 3 true (fun _ => 3) (fun _ => -1) (fun _ => -1) sched p) as [H1 _]; try lia.
  rewrite (H1 H). vm_compute. reflexivity.
Qed.

(** ---------- C11 ---------- *)
(** Refuted.  (a) Subtract: for every array of 65536 or more elements and every interleaving the threaded result is
    init - chunks*init + sum instead of init - sum. *)
Lemma reduce_seq_sub x n init : reduce_seq Z.sub x n init = init - sum_of x n.
Proof.
  unfold reduce_seq, sum_of. generalize (zrange 0 n). intros l. revert init.
  induction l as [|i l IH]; intros init; cbn [fold_left map fold_right]; [lia|]. rewrite IH. lia.
Qed.

Lemma sum_shift x a b : sum_of (fun i => x (a + i)) b = fold_right Z.add 0 (map x (zrange a (a + b))).
Proof.
  unfold sum_of. replace (zrange a (a + b)) with (zrange (a + 0) (a + b)) by (f_equal; lia).
  rewrite <- map_zrange_shift, map_map. reflexivity.
Qed.

Lemma fold_right_add_app l1 l2 : fold_right Z.add 0 (l1 ++ l2) = fold_right Z.add 0 l1 + fold_right Z.add 0 l2.
Proof. induction l1 as [|a l1 IH]; cbn [app fold_right]; [lia|]. rewrite IH. lia. Qed.

Lemma sum_chunks x n k : 0 < n -> 0 <= k ->
  sum_of (fun w => sum_of (fun i => x (16384 * w + i)) (Z.min 16384 (Z.max 0 (n - 16384 * w)))) k = sum_of x (Z.min n (16384 * k)).
Proof.
  intros Hn. revert k. apply natlike_ind.
  - unfold sum_of. rewrite !zrange_nil by lia. reflexivity.
  - intros k Hk IH. replace (Z.succ k) with (k + 1) by lia.
    unfold sum_of at 1. rewrite zrange_snoc by lia. rewrite map_app, fold_right_add_app.
    match goal with |- ?a + _ = _ => change a with (sum_of (fun w => sum_of (fun i => x (16384 * w + i)) (Z.min 16384 (Z.max 0 (n - 16384 * w)))) k) end.
    rewrite IH. cbn [map fold_right]. rewrite sum_shift. unfold sum_of.
    rewrite Z.add_0_r, <- fold_right_add_app, <- map_app. f_equal. f_equal.
    destruct (Z.le_gt_cases n (16384 * k)).
    + replace (Z.min 16384 (Z.max 0 (n - 16384 * k))) with 0 by lia. rewrite (zrange_nil (16384 * k)) by lia.
      rewrite app_nil_r. f_equal. lia.
    + replace (Z.min n (16384 * k)) with (16384 * k) by lia. rewrite <- zrange_split by lia. f_equal. lia.
Qed.

Theorem C11_subtract_refuted :
  forall (sz inp init n W : Z) (zz : bool) (rd junk wild : Z -> Z) (sched : list Z) (p : Z -> Z),
    0 < sz -> 65536 <= n -> 0 <= W ->
    let x := fun i => rd (inp + i * sz) in
    let r := mkRed Z inp sz init None (numpy_loop Z.sub) in
    returned r rd n W zz junk sched p ->
    finish_numpy r sz n wild p = init - red_chunks n * init + sum_of x n /\
    reduce_seq Z.sub x n init = init - sum_of x n.
Proof.
  intros sz inp init n W zz rd junk wild sched p Hsz Hn HW x r [Hr Hp]. split; [|apply reduce_seq_sub].
  pose proof (returned_parts r rd n W zz HW junk sched Hr) as Hparts. rewrite Hp in Hparts.
  unfold finish_numpy. cbn [r r_kernel r_init r_stride].
  assert (Hch : 0 < red_chunks n) by (unfold red_chunks; change WORK_ITEM_CHUNK with 16384; lia).
  unfold numpy_loop at 1.
  change (reduce_seq Z.sub (fun w => buffer p sz (red_chunks n) wild (0 + w * sz)) (red_chunks n) init =
          init - red_chunks n * init + sum_of x n).
  rewrite reduce_seq_sub.
  assert (Hs : sum_of (fun w => buffer p sz (red_chunks n) wild (0 + w * sz)) (red_chunks n) =
    sum_of (fun w => init - sum_of (fun i => x (16384 * w + i)) (Z.min 16384 (Z.max 0 (n - 16384 * w)))) (red_chunks n)).
  { unfold sum_of at 1 2. f_equal. apply map_ext_in. intros w Hw. apply zrange_In in Hw.
    unfold buffer. replace (0 + w * sz) with (w * sz) by lia. rewrite Z_mod_mult.
    replace (0 =? 0) with true by reflexivity.
    destruct (Z.leb_spec 0 (w * sz)); [|nia]. destruct (Z.ltb_spec (w * sz) (red_chunks n * sz)); [|nia].
    cbn [andb]. rewrite Z.div_mul by lia. rewrite Hparts by lia.
    unfold chunk_value. cbn [r_kernel r r_in r_stride start_val r_special r_init].
    match goal with |- numpy_loop Z.sub rd ?a init ?b sz = ?c =>
      change (reduce_seq Z.sub (fun i => rd (a + i * sz)) b init = c) end.
    rewrite reduce_seq_sub. f_equal.
    unfold red_chunks in Hw. change WORK_ITEM_CHUNK with 16384 in Hw.
    replace (Z.max 0 (n - 16384 * w)) with (n - 16384 * w) by lia.
    unfold sum_of. f_equal. apply map_ext. intros i. unfold x. f_equal. lia. }
  rewrite Hs.
  assert (Hd : forall f k, 0 <= k -> sum_of (fun w => init - f w) k = k * init - sum_of f k).
  { intros f k Hk. revert k Hk. apply natlike_ind.
    - unfold sum_of. rewrite zrange_nil by lia. reflexivity.
    - intros k Hk IH. replace (Z.succ k) with (k + 1) by lia. unfold sum_of in *. rewrite zrange_snoc by lia.
      rewrite !map_app, !fold_right_add_app, IH. cbn [map fold_right]. lia. }
  rewrite Hd by lia. rewrite sum_chunks by lia.
  replace (Z.min n (16384 * red_chunks n)) with n; [lia|].
  unfold red_chunks. change WORK_ITEM_CHUNK with 16384. lia.
Qed.
Print Assumptions C11_subtract_refuted.

Lemma sum_of_const v n : 0 <= n -> sum_of (fun _ => v) n = n * v.
Proof.
  revert n. apply natlike_ind.
  - reflexivity.
  - intros k Hk IH. replace (Z.succ k) with (k + 1) by lia. unfold sum_of in *. rewrite zrange_snoc by lia.
    rewrite map_app, fold_right_add_app, IH. cbn [map fold_right]. lia.
Qed.

(** so np.subtract.reduce of 65537 ones (first element is the initial value) gives 65533 rather than -65535 *)
Example C11_subtract_example :
  exists sched p, let r := mkRed Z 0 8 1 None (numpy_loop Z.sub) in
    returned r (fun _ => 1) 65536 3 false (fun _ => 0) sched p /\
    finish_numpy r 8 65536 (fun _ => 0) p = 65533 /\ reduce_seq Z.sub (fun _ => 1) 65536 1 = -65535.
Proof.
  destruct (demo_returned (mkRed Z 0 8 1 None (numpy_loop Z.sub)) (fun _ => 1) 65536 3 false
             (fun _ => 0) ltac:(lia) ltac:(lia)) as (sched & p & H).
  exists sched, p. cbv zeta. split; [exact H|].
  destruct (C11_subtract_refuted 8 0 1 65536 3 false (fun _ => 1) (fun _ => 0) (fun _ => 0) sched p) as [H1 H2]; try lia;
    [exact H|].
  cbv zeta in H1, H2. rewrite H1, H2, sum_of_const by lia. split; reflexivity.
Qed.

(** (b) bitwise xor with a non-zero initial value: it is mixed in once per chunk. 81920 zeros, initial value 1,
    five chunks: the result is 0 instead of 1. *)
Lemma reduce_seq_xor0 n v : reduce_seq Z.lxor (fun _ => 0) n v = v.
Proof.
  unfold reduce_seq. generalize (zrange 0 n). intros l. revert v.
  induction l as [|i l IH]; intros v; cbn [fold_left]; [reflexivity|]. rewrite Z.lxor_0_r. apply IH.
Qed.

Theorem C11_xor_refuted :
  forall (W : Z) (zz : bool) (junk wild : Z -> Z) (sched : list Z) (p : Z -> Z),
    0 <= W ->
    let r := mkRed Z 0 8 1 None (numpy_loop Z.lxor) in
    returned r (fun _ => 0) 81920 W zz junk sched p ->
    finish_numpy r 8 81920 wild p = 0 /\ reduce_seq Z.lxor (fun _ => 0) 81920 1 = 1.
Proof.
  intros W zz junk wild sched p HW r [Hr Hp]. split; [|apply reduce_seq_xor0].
  pose proof (returned_parts r (fun _ => 0) 81920 W zz HW junk sched Hr) as Hparts. rewrite Hp in Hparts.
  assert (Hall : forall w, 0 <= w < red_chunks 81920 -> p w = 1).
  { intros w Hw. rewrite Hparts by assumption. unfold chunk_value. cbn [r_kernel r r_in r_stride start_val r_special r_init].
    apply reduce_seq_xor0. }
  change (red_chunks 81920) with 5 in Hall.
  unfold finish_numpy, numpy_loop. cbn [r r_kernel r_init r_stride]. change (red_chunks 81920) with 5.
  transitivity (fold_left (fun acc _ : Z => Z.lxor acc 1) (zrange 0 5) 1); [|vm_compute; reflexivity].
  apply fold_left_ext_in. intros a w Hw. apply zrange_In in Hw. f_equal.
  unfold buffer. replace (0 + w * 8) with (w * 8) by lia. rewrite Z_mod_mult.
  replace (0 =? 0) with true by reflexivity.
  destruct (Z.leb_spec 0 (w * 8)); [|nia]. destruct (Z.ltb_spec (w * 8) (5 * 8)); [|nia].
  cbn [andb]. rewrite Z.div_mul by lia. apply Hall. lia.
Qed.
Print Assumptions C11_xor_refuted.

Example C11_xor_nonvacuous : exists sched p,
  returned (mkRed Z 0 8 1 None (numpy_loop Z.lxor)) (fun _ => 0) 81920 3 false (fun _ => 0) sched p.
Proof. apply demo_returned; lia. Qed.

(** (c) numpy path on a strided array: the final pass walks the compact chunk buffer with the array's stride and
    reads outside it, so the result is whatever lies there: np.maximum over a strided int64 array of 65536 zeros
    returns any value [K] >= 0 that happens to be on the stack after the buffer. *)
Theorem C11_strided_numpy_refuted :
  forall (K W : Z) (zz : bool) (junk : Z -> Z) (sched : list Z) (p : Z -> Z),
    0 <= K -> 0 <= W ->
    let r := mkRed Z 0 16 0 None (numpy_loop Z.max) in
    returned r (fun _ => 0) 65536 W zz junk sched p ->
    finish_numpy r 8 65536 (fun _ => K) p = K /\ reduce_seq Z.max (fun _ => 0) 65536 0 = 0.
Proof.
  intros K W zz junk sched p HK HW r [Hr Hp]. split.
  2: { unfold reduce_seq. generalize (zrange 0 65536). intros l. assert (H : forall v, v = 0 ->
         fold_left (fun acc _ => Z.max acc 0) l v = 0).
       { induction l as [|i l IH]; intros v ->; cbn [fold_left]; [reflexivity|]. now apply IH. }
       apply H. reflexivity. }
  pose proof (returned_parts r (fun _ => 0) 65536 W zz HW junk sched Hr) as Hparts. rewrite Hp in Hparts.
  assert (Hall : forall w, 0 <= w < red_chunks 65536 -> p w = 0).
  { intros w Hw. rewrite Hparts by assumption. unfold chunk_value. cbn [r_kernel r r_in r_stride start_val r_special r_init].
    unfold numpy_loop. match goal with |- fold_left _ ?l 0 = 0 => generalize l end. intros l.
    assert (H : forall v, v = 0 -> fold_left (fun acc _ => Z.max acc 0) l v = 0).
    { induction l as [|i l IH]; intros v ->; cbn [fold_left]; [reflexivity|]. now apply IH. }
    apply H. reflexivity. }
  change (red_chunks 65536) with 4 in Hall.
  unfold finish_numpy, numpy_loop. cbn [r r_kernel r_init r_stride]. change (red_chunks 65536) with 4.
  transitivity (fold_left (fun acc w : Z => Z.max acc (if w <? 2 then 0 else K)) (zrange 0 4) 0).
  2: { change (Z.max (Z.max (Z.max (Z.max 0 0) 0) K) K = K). lia. }
  apply fold_left_ext_in. intros a w Hw. apply zrange_In in Hw. f_equal.
  unfold buffer. destruct (Z.ltb_spec w 2).
  - replace (0 + w * 16) with ((2 * w) * 8) by lia. rewrite Z_mod_mult.
    replace (0 =? 0) with true by reflexivity.
    destruct (Z.leb_spec 0 (2 * w * 8)); [|nia]. destruct (Z.ltb_spec (2 * w * 8) (4 * 8)); [|nia].
    cbn [andb]. rewrite Z.div_mul by lia. apply Hall. lia.
  - destruct (Z.ltb_spec (0 + w * 16) (4 * 8)); [lia|]. rewrite andb_false_r. reflexivity.
Qed.
Print Assumptions C11_strided_numpy_refuted.

Example C11_strided_nonvacuous : exists sched p,
  returned (mkRed Z 0 16 0 None (numpy_loop Z.max)) (fun _ => 0) 65536 3 false (fun _ => 0) sched p.
Proof. apply demo_returned; lia. Qed.
