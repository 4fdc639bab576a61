(** Arange_Props.v - C25 (integer arange) and C49 (float arange). *)
From Coq Require Import Floats.SpecFloat.
From Verif Require Import Base Threads_Model Threads_Proofs Threads_Counter_Proofs Jobs_Model Jobs_Proofs Jobs_Call_Proofs Arange_Model.

Section Gen.
  Context {V : Type} (sub : V -> V -> V) (elem : V -> Z -> V -> V) (first next : V).
  Notation arange_gen := (arange_prog sub elem).
  (** what element i must be *)
  Definition arange_value (i : Z) : V := elem first i (sub next first).
  Hypotheses (value_0 : arange_value 0 = first) (value_1 : arange_value 1 = next).

  Definition a_good (m : Z -> V) : Prop := m 0 = first /\ m 1 = next.
  Definition a_locok (st len : Z) (k : nat) (l : V * V) : Prop :=
    match k with O => True | 1%nat => fst l = first | _ => fst l = first /\ snd l = sub next first end.
  Definition a_wcell (st len : Z) (k : nat) : option Z :=
    match k with
    | S (S j) => option_map (fun i => st + i) (nth_error (zrange 0 len) j)
    | _ => None end.

  Lemma a_stable m m' : a_good m -> (forall a, m' a = m a \/ m' a = arange_value a) -> a_good m'.
  Proof.
    intros [G0 G1] H. split; [destruct (H 0) as [-> | ->]; [exact G0|exact value_0]|destruct (H 1) as [-> | ->]; [exact G1|exact value_1]].
  Qed.
  Lemma a_op_ok st len k op l m : nth_error (arange_gen st len) k = Some op -> a_good m -> a_locok st len k l ->
    let r := op l m in
    a_locok st len (S k) (fst r) /\
    match snd r with Some (a, v) => v = arange_value a /\ a_wcell st len k = Some a | None => a_wcell st len k = None end.
  Proof.
    intros Hop [G0 G1] Hl. unfold arange_prog in Hop. destruct k as [|[|j]]; cbn [nth_error] in Hop.
    - injection Hop as <-. unfold op_first. cbn. rewrite G0. split; reflexivity.
    - injection Hop as <-. cbn in Hl |- *. rewrite Hl, G1. repeat split; reflexivity.
    - rewrite nth_error_map in Hop. destruct (nth_error (zrange 0 len) j) as [i|] eqn:E; [|discriminate].
      injection Hop as <-. unfold op_store. cbn [a_wcell fst snd]. rewrite E. cbn [option_map].
      assert (Hl' : fst l = first /\ snd l = sub next first) by (destruct j; exact Hl).
      destruct Hl' as [L1 L2]. rewrite L1, L2. cbv zeta. fold (arange_value (st + i)).
      repeat split; assumption.
  Qed.

  Lemma a_cell st len a : 0 <= len -> (exists k, (k < length (arange_gen st len))%nat /\ a_wcell st len k = Some a) <-> st <= a < st + len.
  Proof.
    intros Hlen. split.
    - intros (k & _ & H). destruct k as [|[|j]]; try discriminate. cbn in H.
      destruct (nth_error (zrange 0 len) j) as [i|] eqn:E; [|discriminate]. injection H as <-.
      apply nth_error_In, zrange_In in E. lia.
    - intros H. assert (Hi : In (a - st) (zrange 0 len)) by (apply zrange_In; lia).
      apply In_nth_error in Hi. destruct Hi as [j Hj]. exists (S (S j)). split.
      + unfold arange_prog. cbn [length]. rewrite map_length.
        assert (j < length (zrange 0 len))%nat by (apply nth_error_Some; congruence). lia.
      + cbn. rewrite Hj. cbn. f_equal. lia.
  Qed.

  Lemma alone_gen d n m : 0 <= n -> a_good m ->
    let m' := run_ops d (arange_gen 0 n) m in
    (forall i, 0 <= i < n -> m' i = arange_value i) /\ (forall a, ~ (0 <= a < n) -> m' a = m a).
  Proof.
    intros Hn Hg.
    destruct (alone_rule (arange_gen 0 n) d m arange_value a_good (a_locok 0 n) (a_wcell 0 n) Hg I) as (_ & A & B).
    - exact a_stable.
    - intros k op l m1. apply a_op_ok.
    - cbv zeta. split.
      + intros i Hi. destruct (proj2 (a_cell 0 n i Hn) ltac:(lia)) as (k & Hk & Hwc). apply (A k); assumption.
      + intros a Ha. apply B. intros k Hk Hwc. apply Ha. pose proof (proj1 (a_cell 0 n a Hn)) as Hc. specialize (Hc (ex_intro _ k (conj Hk Hwc))). lia.
  Qed.

  Lemma call_gen d n h m m' : 0 <= n -> m 0 = first -> m 1 = next ->
    chunk_call arange_gen d n h m m' ->
    (forall i, 0 <= i < n -> m' i = arange_value i) /\ (forall a, ~ (0 <= a < n) -> m' a = m a).
  Proof.
    intros Hn H0 H1 Hc. destruct h as [|T zz sched].
    - cbn in Hc. subst m'. apply (alone_gen d n m Hn). split; assumption.
    - destruct Hc as (_ & HT & Hc).
      destruct (jobs_rule arange_gen d ChunkMode n T zz m HT arange_value a_good a_locok a_wcell) with (sched := sched) (m' := m') as (_ & A & B).
      + split; assumption.
      + exact a_stable.
      + intros x _. cbn. exact I.
      + intros x k op l m1 Hv. cbn [piece]. intros Hop Hg Hl. exact (a_op_ok _ _ k op l m1 Hop Hg Hl).
      + exact Hc.
      + split.
        * intros i Hi. destruct (piece_cover n (Threaded T zz sched) i Hi) as (st & len & (x & Hv & -> & ->) & Hr).
          apply (A x); [unfold valid; cbn; lia|]. unfold cell_of. cbn [piece].
          apply a_cell; [pose proof (blen_pos n x Hv); lia|exact Hr].
        * intros a Ha. apply B. intros x Hv Hcell. unfold valid in Hv. cbn [w0 tgt] in Hv. unfold cell_of in Hcell. cbn [piece] in Hcell.
          apply a_cell in Hcell; [|pose proof (blen_pos n x ltac:(lia)); lia].
          destruct (piece_range n (Threaded T zz sched) (CH * x) (blen n x) Hn) as (R1 & R2 & R3); [exists x; split; [lia|auto]|]. lia.
  Qed.
End Gen.

(** ======== C25 ======== *)
(** An integer arange of n elements of w bits whose first two elements hold first and next: when the fill returns, threaded
    under any schedule or not, element i is first + i*(next-first) modulo 2^w, and nothing outside the array changed. *)
Theorem C25_int_arange : forall w first next n h m m',
  0 <= w -> 0 <= first < 2 ^ w -> 0 <= next < 2 ^ w -> 0 <= n ->
  m 0 = first -> m 1 = next ->
  chunk_call (arange_int w) (0, 0) n h m m' ->
  (forall i, 0 <= i < n -> m' i = (first + i * (next - first)) mod 2 ^ w) /\
  (forall a, ~ (0 <= a < n) -> m' a = m a).
Proof.
  intros w first next n h m m' Hw Hf Hx Hn H0 H1 Hc. assert (Hp : 0 < 2 ^ w) by (apply Z.pow_pos_nonneg; lia).
  assert (Hv : forall i, arange_value (sub_int w) (elem_int w) first next i = (first + i * (next - first)) mod 2 ^ w).
  { intros i. unfold arange_value, elem_int, sub_int.
    rewrite <- Z.add_mod_idemp_r, Z.mul_mod_idemp_r, Z.add_mod_idemp_r by lia. reflexivity. }
  destruct (call_gen (sub_int w) (elem_int w) first next) with (d := (0, 0)) (n := n) (h := h) (m := m) (m' := m') as [A B]; try assumption.
  - rewrite Hv. replace (first + 0 * (next - first)) with first by lia. apply Z.mod_small, Hf.
  - rewrite Hv. replace (first + 1 * (next - first)) with next by lia. apply Z.mod_small, Hx.
  - split; [|exact B]. intros i Hi. rewrite A, Hv by assumption. reflexivity.
Qed.
Print Assumptions C25_int_arange.

(** int8, 300000 elements, step 3 from 250: wraps around; four threads *)
Example C25_nonvacuous : exists sched m', chunk_call (arange_int 8) (0, 0) 300000 (Threaded 3 true sched) (fun a => if a =? 0 then 250 else 253) m' /\
  m' 2 = 0 /\ m' 100000 = (250 + 300000) mod 256.
Proof.
  destruct (chunk_call_can_return (arange_int 8) (0, 0) 300000 3 true (fun a => if a =? 0 then 250 else 253)) as (s & m' & H);
    [unfold WORK_ITEM_BIG, WORK_ITEM_CHUNK; lia|lia|].
  exists s, m'. split; [exact H|].
  destruct (C25_int_arange 8 250 253 300000 _ _ _ ltac:(lia) ltac:(lia) ltac:(lia) ltac:(lia) eq_refl eq_refl H) as [A _].
  split; rewrite A by lia; reflexivity.
Qed.

(** ======== C49 ======== *)
(** float arange: the same fill is NOT independent of threading.  Chunk 0 replaces element 1 by fl(first + fl(1*delta)),
    which can differ from next; a chunk that starts later computes another delta.  float32, first = 1, next = 2^24+2:
    done by one thread, element 16384 is 2^38; done chunk by chunk it is 2^38 - 2^14. *)
Theorem C49_float_arange_refuted : ~ (forall n h h' m m1 m2 i,
  chunk_call arange_f32 (S754_nan, S754_nan) n h m m1 ->
  chunk_call arange_f32 (S754_nan, S754_nan) n h' m m2 ->
  0 <= i < n -> m1 i = m2 i).
Proof.
  intros H.
  set (m := fun a => if a =? 0 then f32_of_Z 1 else f32_of_Z (2 ^ 24 + 2)).
  set (sched := flat_map (fun _ => [0; 1]) (zrange 0 65700)).
  pose (s := jrun arange_f32 (S754_nan, S754_nan) ChunkMode (jstart (S754_nan, S754_nan) ChunkMode 65536 0 false m) sched).
  assert (Hs : match cpcs (jc s) 0 with CReturned => jm s 16384 | _ => S754_nan end = f32_of_Z (2 ^ 38 - 2 ^ 14)).
  { vm_compute. reflexivity. }
  assert (Hr : cpcs (jc s) 0 = CReturned) by (destruct (cpcs (jc s) 0); [discriminate..|reflexivity]).
  rewrite Hr in Hs.
  specialize (H 65536 Alone (Threaded 0 false sched) m _ (jm s) 16384 eq_refl).
  rewrite Hs in H.
  assert (Hc : run_ops (S754_nan, S754_nan) (arange_f32 0 65536) m 16384 = f32_of_Z (2 ^ 38)) by (vm_compute; reflexivity).
  rewrite Hc in H.
  assert (E : f32_of_Z (2 ^ 38) = f32_of_Z (2 ^ 38 - 2 ^ 14)).
  { apply H; [|lia]. split; [unfold WORK_ITEM_BIG, WORK_ITEM_CHUNK; lia|]. split; [lia|]. split; [exact Hr|reflexivity]. }
  vm_compute in E. discriminate.
Qed.
Print Assumptions C49_float_arange_refuted.

(** It is independent of threading whenever storing element 0 and 1 again does not change them, i.e. when
    fl(first + fl(1 * fl(next - first))) = next (and the same for 0): e.g. small-integer starts and steps. *)
Theorem C49_float_arange_partial : forall first next n h m m',
  let elem := fun first i delta => SFadd 24 128 first (SFmul 24 128 (f32_of_Z i) delta) in
  let delta := SFsub 24 128 next first in
  elem first 0 delta = first -> elem first 1 delta = next ->
  0 <= n -> m 0 = first -> m 1 = next ->
  chunk_call arange_f32 (S754_nan, S754_nan) n h m m' ->
  (forall i, 0 <= i < n -> m' i = elem first i delta) /\ (forall a, ~ (0 <= a < n) -> m' a = m a).
Proof. intros first next n h m m' elem delta E0 E1 Hn H0 H1 Hc. exact (call_gen (SFsub 24 128) elem first next E0 E1 _ n h m m' Hn H0 H1 Hc). Qed.
Print Assumptions C49_float_arange_partial.

Example C49_nonvacuous :
  let elem := fun first i delta => SFadd 24 128 first (SFmul 24 128 (f32_of_Z i) delta) in
  elem (f32_of_Z 5) 0 (SFsub 24 128 (f32_of_Z 8) (f32_of_Z 5)) = f32_of_Z 5 /\
  elem (f32_of_Z 5) 1 (SFsub 24 128 (f32_of_Z 8) (f32_of_Z 5)) = f32_of_Z 8 /\
  exists sched m', chunk_call arange_f32 (S754_nan, S754_nan) 70000 (Threaded 3 true sched) (fun a => if a =? 0 then f32_of_Z 5 else f32_of_Z 8) m'.
Proof.
  split; [reflexivity|]. split; [reflexivity|].
  apply chunk_call_can_return; [unfold WORK_ITEM_BIG, WORK_ITEM_CHUNK; lia|lia].
Qed.
