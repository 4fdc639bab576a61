(** Ufunc_Props.v - C71: hooked element-wise ufuncs on worker threads, end to end: which loop, which block, which byte. *)
From Verif Require Import Base Threads_Model Threads_Proofs Jobs_Model Sort_Model Kernel_Model Kernel_Proofs Kernel_Props
  Float_Model Compare_Model Compare_Proofs Compare_Props Unary_Model Unary_Proofs Unary_Props UnaryVal_Props Round_Model Round_Props Arith_Model Arith_Props
  Ufunc_Model Ufunc_Proofs Ufunc_Kernel_Proofs.

(** ---------- specification ---------- *)
(** The arrays of the call: outputs do not overlap one another, and an output overlaps no input of another position
    (inputs that are the output itself, element for element, are allowed: in-place operations). *)
Definition separate_call (sz a1 s1 a2 s2 out so n : Z) : Prop :=
  forall i j, 0 <= i < n -> 0 <= j < n -> i <> j ->
    disj sz (out + i * so) (out + j * so) /\ disj sz (out + i * so) (a1 + j * s1) /\ disj sz (out + i * so) (a2 + j * s2).

(** How AtopBinaryMathFunction runs a call: alone, or by T workers and the caller in any interleaving of their byte
    accesses, for the loop it selects. *)
Definition call_faults (k : kernel) sz a1 a2 out n s1 s2 so (h : how) (m : bytes) : Prop :=
  ufault_in (pkernel k sz a1 a2 out n s1 s2 so) (on_block k sz a1 a2 out s1 s2 so) n h m.
Definition call_ends (k : kernel) sz a1 a2 out n s1 s2 so (h : how) (m m' : bytes) : Prop :=
  ucall (pkernel k sz a1 a2 out n s1 s2 so) (on_block k sz a1 a2 out s1 s2 so) n h m m'.

(** ---------- a loop that computes [op] element by element when it runs alone ---------- *)
Definition sound (k : kernel) (sz : Z) (op : Z -> Z -> Z) : Prop :=
  forall a1 a2 out n s1 s2 so m, 0 <= n -> bytes_ok m -> out mod sz = 0 -> operands_ok sz a1 s1 a2 s2 out so n ->
    exists m', run_kernel k sz a1 a2 out n s1 s2 so m = Some m' /\ elementwise sz op a1 s1 a2 s2 out so n m m'.

Lemma separate_ok sz a1 s1 a2 s2 out so n c l : separate_call sz a1 s1 a2 s2 out so n -> 0 <= c -> c + l <= n ->
  operands_ok sz (a1 + c * s1) s1 (a2 + c * s2) s2 (out + c * so) so l.
Proof.
  intros H Hc Hl. unfold operands_ok, outs_separate, no_clobber. split; [|split].
  - intros i j Hi Hj Hne. replace (out + c * so + i * so) with (out + (c + i) * so) by ring.
    replace (out + c * so + j * so) with (out + (c + j) * so) by ring. apply H; lia.
  - intros i j Hi Hj. replace (out + c * so + j * so) with (out + (c + j) * so) by ring.
    replace (a1 + c * s1 + i * s1) with (a1 + (c + i) * s1) by ring. apply H; lia.
  - intros i j Hi Hj. replace (out + c * so + j * so) with (out + (c + j) * so) by ring.
    replace (a2 + c * s2 + i * s2) with (a2 + (c + i) * s2) by ring. apply H; lia.
Qed.

Section Binary.
  Variables (k : kernel) (sz : Z) (op : Z -> Z -> Z).
  Hypothesis Hg : good_sz sz.
  Hypothesis Hk : sound k sz op.
  Variables (a1 a2 out n s1 s2 so : Z) (m : bytes).
  Hypothesis Hn : 0 <= n.
  Hypothesis Hm : bytes_ok m.
  Hypothesis Hal : out mod sz = 0 /\ so mod sz = 0.
  Hypothesis Hsc : separate_call sz a1 s1 a2 s2 out so n.
  Let F i := op (ld sz m (a1 + i * s1)) (ld sz m (a2 + i * s2)).
  Let R lb := reads2 sz (a1 + WORK_ITEM_CHUNK * lb * s1) s1 (a2 + WORK_ITEM_CHUNK * lb * s2) s2 (blen n lb).

  Lemma binary_whole : exists R' m', runs R' (writes sz out so n) (pkernel k sz a1 a2 out n s1 s2 so) m m' /\ outputs sz out so n F m m'.
  Proof.
    pose proof (separate_ok sz a1 s1 a2 s2 out so n 0 n Hsc ltac:(lia) ltac:(lia)) as Ho.
    replace (a1 + 0 * s1) with a1 in Ho by lia. replace (a2 + 0 * s2) with a2 in Ho by lia. replace (out + 0 * so) with out in Ho by lia.
    destruct (Hk a1 a2 out n s1 s2 so m Hn Hm (proj1 Hal) Ho) as (m' & E & El).
    exists (fun _ => True), m'. split; [|exact El]. apply kernel_runs_gen; auto; try (intros i Hi x Hx; exact Logic.I); try (intros x Hx; exact Logic.I).
    intros i Hi x Hx. exists i. auto.
  Qed.
  Lemma binary_block lb : 0 <= lb < BL n -> exists m', runs (R lb) (writes sz (out + WORK_ITEM_CHUNK * lb * so) so (blen n lb)) (on_block k sz a1 a2 out s1 s2 so lb (blen n lb)) m m' /\
    (forall i, 0 <= i < blen n lb -> ld sz m' (out + (WORK_ITEM_CHUNK * lb + i) * so) = F (WORK_ITEM_CHUNK * lb + i)).
  Proof.
    intros Hlb. pose proof (blen_pos n lb Hlb) as Hp. pose proof (good_pos sz Hg) as Hs.
    pose proof (proj1 (blen_elems n lb (CH * lb + blen n lb - 1) Hlb) ltac:(lia)) as [He _].
    set (c := WORK_ITEM_CHUNK * lb) in *. change (CH * lb) with c in He.
    pose proof (separate_ok sz a1 s1 a2 s2 out so n c (blen n lb) Hsc ltac:(unfold c, WORK_ITEM_CHUNK; lia) ltac:(lia)) as Ho.
    assert (Ha : (out + c * so) mod sz = 0).
    { destruct Hal as [A1 A2]. apply Z.mod_divide in A1; [|lia]. apply Z.mod_divide in A2; [|lia]. apply Z.mod_divide; [lia|].
      apply Z.divide_add_r; [exact A1|]. now apply Z.divide_mul_r. }
    destruct (Hk _ _ _ (blen n lb) _ _ _ m ltac:(lia) Hm Ha Ho) as (m' & E & El & _).
    exists m'. split.
    - unfold on_block, R. fold c. apply kernel_runs; [exact Hg|lia|exact E].
    - intros i Hi. replace (out + (c + i) * so) with (out + c * so + i * so) by ring. rewrite El by exact Hi. unfold F.
      f_equal; f_equal; ring.
  Qed.
  Lemma disj_no x a b : disj sz a b -> a <= x < a + sz -> ~ (b <= x < b + sz).
  Proof. unfold disj. lia. Qed.
  Lemma binary_sep lb lb' x : 0 <= lb < BL n -> 0 <= lb' < BL n -> lb <> lb' ->
    writes sz (out + WORK_ITEM_CHUNK * lb * so) so (blen n lb) x ->
    ~ R lb' x /\ ~ writes sz (out + WORK_ITEM_CHUNK * lb' * so) so (blen n lb') x.
  Proof.
    intros Hb Hb' Hne (i & Hi & Hx).
    assert (Hin : forall l j, 0 <= l < BL n -> 0 <= j < blen n l -> 0 <= CH * l + j < n /\ (CH * l + j) / CH = l)
      by (intros l j Hl Hj; apply (blen_elems n l (CH * l + j) Hl); lia).
    destruct (Hin lb i Hb Hi) as [I1 I2].
    assert (Hx' : out + (CH * lb + i) * so <= x < out + (CH * lb + i) * so + sz) by (unfold CH; nia).
    split.
    - intros (j & Hj & Hr). destruct (Hin lb' j Hb' Hj) as [J1 J2].
      destruct (Hsc (CH * lb + i) (CH * lb' + j) I1 J1 ltac:(congruence)) as (_ & D1 & D2).
      destruct Hr as [Hr|Hr].
      + apply (disj_no x _ _ D1 Hx'). unfold CH. nia.
      + apply (disj_no x _ _ D2 Hx'). unfold CH. nia.
    - intros (j & Hj & Hr). destruct (Hin lb' j Hb' Hj) as [J1 J2].
      destruct (Hsc (CH * lb + i) (CH * lb' + j) I1 J1 ltac:(congruence)) as (D & _).
      apply (disj_no x _ _ D Hx'). unfold CH. nia.
  Qed.

  Lemma binary_call h : ~ call_faults k sz a1 a2 out n s1 s2 so h m /\
    (forall m', call_ends k sz a1 a2 out n s1 s2 so h m m' -> elementwise sz op a1 s1 a2 s2 out so n m m').
  Proof. exact (call_rule _ _ sz out so n F m R (good_pos sz Hg) binary_whole binary_block binary_sep h). Qed.
  Lemma binary_ends T zz sched : WORK_ITEM_BIG <= n -> 0 <= T ->
    exists more m', call_ends k sz a1 a2 out n s1 s2 so (Threaded T zz (sched ++ more)) m m'.
  Proof. exact (call_can_return _ _ sz out so n F m R Hn binary_block binary_sep T zz sched). Qed.
End Binary.

(** ---------- the loops are sound ---------- *)
Lemma sound_ext k sz op op' : 0 < sz -> (forall x y, pat sz x -> pat sz y -> op x y = op' x y) -> sound k sz op -> sound k sz op'.
Proof.
  intros Hs H Hk a1 a2 out n s1 s2 so m Hn Hm Hal Ho. destruct (Hk a1 a2 out n s1 s2 so m Hn Hm Hal Ho) as (m' & E & E1 & E2).
  exists m'. split; [exact E|]. split; [|exact E2]. intros i Hi. rewrite E1 by exact Hi. apply H; apply ld_pat; try lia; exact Hm.
Qed.
Lemma numpy_sound sz nop : good_sz sz -> closed_op sz nop -> sound (KNumpy nop) sz nop.
Proof.
  intros Hg Hc a1 a2 out n s1 s2 so m Hn Hm Hal Ho. eexists. split; [reflexivity|]. now apply (scalar_ok sz nop nop Hg Hc).
Qed.
Lemma chosen_sound enabled k nop sz op a1 a2 out : good_sz sz -> closed_op sz op -> sound k sz op ->
  (forall x y, pat sz x -> pat sz y -> nop x y = op x y) -> sound (chosen enabled (Some k) nop a1 a2 out) sz op.
Proof.
  intros Hg Hc Hk Hnop. unfold chosen. destruct (enabled && negb (overlap_guard a1 a2 out)); [exact Hk|].
  apply (sound_ext _ _ nop); [now apply good_pos|exact Hnop|]. apply numpy_sound; [exact Hg|].
  intros x y Hx Hy. rewrite Hnop by assumption. now apply Hc.
Qed.
Lemma entry_sound f t e : table f t = Some e -> sound (of_entry e) (isize t) (scalar_of e).
Proof.
  intros Hent a1 a2 out n s1 s2 so m Hn Hm Hal Ho. destruct (table_ok f t e Hent) as (Hcl & Hv & Hcomm). pose proof (isize_good t) as Hg.
  destruct e as [op opv|op opv]; cbn [of_entry run_kernel scalar_of lane_of] in *.
  - apply SimpleMathOpFastSymmetric_elementwise; try assumption. intros x y _ _. eapply Hcomm. reflexivity.
  - now apply SimpleMathOpFast_elementwise.
Qed.
Lemma fsize_good f : known f -> good_sz (fsize f).
Proof. intros K. unfold good_sz. destruct K as [-> | ->]; [change (fsize FLT) with 4|change (fsize DBL) with 8]; lia. Qed.
Lemma fentry_sound u f : known f -> sound (of_fentry (ftable u f)) (fsize f) (fscalar u f).
Proof.
  intros K a1 a2 out n s1 s2 so m Hn Hm Hal Ho. destruct (float_binary u f a1 a2 out n s1 s2 so m K Hn Hm Hal Ho) as (m' & E & El).
  exists m'. split; [|exact El]. rewrite <- E. destruct (ftable u f); reflexivity.
Qed.

(** ---------- C71 ---------- *)
(** Integer and boolean ufuncs.  For every ufunc and type pnumpy replaces, enabled or not, every length, strides and
    contents, any number of workers, either zigzag direction, any interleaving of byte accesses: no fault; a call that
    returns has put the documented answer for the ORIGINAL inputs in every output and has changed no other byte; and a
    threaded call, however far it has got, can still be brought to return. *)
Theorem C71_integer_ufuncs :
  forall (f : ufn) (t : ity) (e : entry) (enabled : bool) (nop : Z -> Z -> Z) (a1 a2 out n s1 s2 so : Z) (m : bytes),
    table f t = Some e ->
    (forall x y, pat (isize t) x -> pat (isize t) y -> nop x y = scalar_of e x y) ->
    0 <= n -> bytes_ok m -> out mod isize t = 0 /\ so mod isize t = 0 ->
    separate_call (isize t) a1 s1 a2 s2 out so n ->
    (forall i, 0 <= i < n -> valid t (ld (isize t) m (a1 + i * s1)) /\ valid t (ld (isize t) m (a2 + i * s2))) ->
    let k := chosen enabled (Some (of_entry e)) nop a1 a2 out in
    (forall h, ~ call_faults k (isize t) a1 a2 out n s1 s2 so h m) /\
    (forall h m', call_ends k (isize t) a1 a2 out n s1 s2 so h m m' ->
      (forall i, 0 <= i < n ->
         answers f t (ld (isize t) m (a1 + i * s1)) (ld (isize t) m (a2 + i * s2)) (ld (isize t) m' (out + i * so))) /\
      (forall x, (forall i, 0 <= i < n -> ~ (out + i * so <= x < out + i * so + isize t)) -> m' x = m x)) /\
    (forall T zz sched, WORK_ITEM_BIG <= n -> 0 <= T ->
      exists more m', call_ends k (isize t) a1 a2 out n s1 s2 so (Threaded T zz (sched ++ more)) m m').
Proof.
  intros f t e enabled nop a1 a2 out n s1 s2 so m Hent Hnop Hn Hm Hal Hsc Hvalid k.
  destruct (table_ok f t e Hent) as (Hcl & _ & _). pose proof (isize_good t) as Hg.
  assert (Hk : sound k (isize t) (scalar_of e)) by (apply chosen_sound; try assumption; now apply entry_sound with (f := f)).
  pose proof (binary_call k _ _ Hg Hk a1 a2 out n s1 s2 so m Hn Hm Hal Hsc) as B. split; [intros h; apply B|]. split.
  - intros h m' H. destruct (proj2 (B h) m' H) as [E1 E2]. split; [|exact E2].
    intros i Hi. rewrite E1 by exact Hi. apply table_is_numpy; try assumption; apply Hvalid; exact Hi.
  - intros T zz sched. now apply (binary_ends k _ _ Hg Hk).
Qed.
Print Assumptions C71_integer_ufuncs.

(** float32 and float64 +, -, *, / *)
Theorem C71_float_arithmetic :
  forall (o : arith) (f : fmt) (enabled : bool) (nop : Z -> Z -> Z) (a1 a2 out n s1 s2 so : Z) (m : bytes),
    known f -> (forall x y, pat (fsize f) x -> pat (fsize f) y -> nop x y = fscalar (arith_op o) f x y) ->
    0 <= n -> bytes_ok m -> out mod fsize f = 0 /\ so mod fsize f = 0 ->
    separate_call (fsize f) a1 s1 a2 s2 out so n ->
    let k := chosen enabled (Some (of_fentry (ftable (arith_op o) f))) nop a1 a2 out in
    (forall h, ~ call_faults k (fsize f) a1 a2 out n s1 s2 so h m) /\
    (forall h m', call_ends k (fsize f) a1 a2 out n s1 s2 so h m m' ->
      answered2 (arith_spec o f) (fsize f) a1 s1 a2 s2 out so n m m') /\
    (forall T zz sched, WORK_ITEM_BIG <= n -> 0 <= T ->
      exists more m', call_ends k (fsize f) a1 a2 out n s1 s2 so (Threaded T zz (sched ++ more)) m m').
Proof.
  intros o f enabled nop a1 a2 out n s1 s2 so m K Hnop Hn Hm Hal Hsc k. pose proof (fsize_good f K) as Hg.
  assert (Hk : sound k (fsize f) (fscalar (arith_op o) f)).
  { apply chosen_sound; try assumption; [now apply fscalar_closed|now apply fentry_sound]. }
  pose proof (binary_call k _ _ Hg Hk a1 a2 out n s1 s2 so m Hn Hm Hal Hsc) as B. split; [intros h; apply B|]. split.
  - intros h m' H. destruct (proj2 (B h) m' H) as [E1 E2]. split; [|exact E2].
    intros i Hi. rewrite E1 by exact Hi. pose proof (good_pos _ Hg).
    assert (P1 : 0 <= ld (fsize f) m (a1 + i * s1) < 2 ^ fwidth f) by (apply fpat; [exact K|apply ld_pat; try lia; exact Hm]).
    assert (P2 : 0 <= ld (fsize f) m (a2 + i * s2) < 2 ^ fwidth f) by (apply fpat; [exact K|apply ld_pat; try lia; exact Hm]).
    destruct o; cbn [arith_op arith_spec fscalar]; [apply add_ok|apply sub_ok|apply mul_ok|apply div_ok]; assumption.
  - intros T zz sched. now apply (binary_ends k _ _ Hg Hk).
Qed.
Print Assumptions C71_float_arithmetic.

(** A ufunc pnumpy only threads (no replacement loop): any operation of NumPy's on elements of 1, 2, 4 or 8 bytes gives
    on threads exactly what NumPy's loop gives, element by element. *)
Theorem C71_threaded_numpy_loop :
  forall (sz : Z) (enabled : bool) (nop : Z -> Z -> Z) (a1 a2 out n s1 s2 so : Z) (m : bytes),
    good_sz sz -> closed_op sz nop -> 0 <= n -> bytes_ok m -> out mod sz = 0 /\ so mod sz = 0 -> separate_call sz a1 s1 a2 s2 out so n ->
    let k := chosen enabled None nop a1 a2 out in
    (forall h, ~ call_faults k sz a1 a2 out n s1 s2 so h m) /\
    (forall h m', call_ends k sz a1 a2 out n s1 s2 so h m m' ->
      answered2 (fun x y r => r = nop x y) sz a1 s1 a2 s2 out so n m m') /\
    (forall T zz sched, WORK_ITEM_BIG <= n -> 0 <= T ->
      exists more m', call_ends k sz a1 a2 out n s1 s2 so (Threaded T zz (sched ++ more)) m m').
Proof.
  intros sz enabled nop a1 a2 out n s1 s2 so m Hg Hc Hn Hm Hal Hsc k.
  assert (Hk : sound k sz nop) by (apply numpy_sound; assumption).
  pose proof (binary_call k _ _ Hg Hk a1 a2 out n s1 s2 so m Hn Hm Hal Hsc) as B. split; [intros h; apply B|]. split.
  - intros h m' H. exact (proj2 (B h) m' H).
  - intros T zz sched. now apply (binary_ends k _ _ Hg Hk).
Qed.

(** Two executions of the same call with the same operands leave the same memory, whichever of them was threaded. *)
Theorem C71_threading_invisible :
  forall (f : ufn) (t : ity) (e : entry) (enabled enabled' : bool) (nop : Z -> Z -> Z) (a1 a2 out n s1 s2 so : Z) (m : bytes) h h' m1 m2,
    table f t = Some e ->
    (forall x y, pat (isize t) x -> pat (isize t) y -> nop x y = scalar_of e x y) ->
    0 <= n -> bytes_ok m -> out mod isize t = 0 /\ so mod isize t = 0 -> separate_call (isize t) a1 s1 a2 s2 out so n ->
    call_ends (chosen enabled (Some (of_entry e)) nop a1 a2 out) (isize t) a1 a2 out n s1 s2 so h m m1 ->
    call_ends (chosen enabled' (Some (of_entry e)) nop a1 a2 out) (isize t) a1 a2 out n s1 s2 so h' m m2 ->
    (forall i, 0 <= i < n -> ld (isize t) m1 (out + i * so) = ld (isize t) m2 (out + i * so)) /\
    (forall x, (forall i, 0 <= i < n -> ~ (out + i * so <= x < out + i * so + isize t)) -> m1 x = m2 x).
Proof.
  intros f t e en en' nop a1 a2 out n s1 s2 so m h h' m1 m2 Hent Hnop Hn Hm Hal Hsc H1 H2.
  destruct (table_ok f t e Hent) as (Hcl & _ & _). pose proof (isize_good t) as Hg.
  assert (Hk : forall b, sound (chosen b (Some (of_entry e)) nop a1 a2 out) (isize t) (scalar_of e)) by (intros b; apply chosen_sound; try assumption; now apply entry_sound with (f := f)).
  destruct (proj2 (binary_call _ _ _ Hg (Hk en) a1 a2 out n s1 s2 so m Hn Hm Hal Hsc h) m1 H1) as [A1 B1].
  destruct (proj2 (binary_call _ _ _ Hg (Hk en') a1 a2 out n s1 s2 so m Hn Hm Hal Hsc h') m2 H2) as [A2 B2].
  split.
  - intros i Hi. rewrite A1, A2 by exact Hi. reflexivity.
  - intros x Hx. rewrite B1, B2 by exact Hx. reflexivity.
Qed.

(** ---------- every float ufunc pnumpy replaces ---------- *)
Lemma chosen_either enabled k nop sz op a1 a2 out : good_sz sz -> closed_op sz nop -> sound k sz op ->
  exists op', (op' = op \/ op' = nop) /\ sound (chosen enabled (Some k) nop a1 a2 out) sz op'.
Proof.
  intros Hg Hc Hk. unfold chosen. destruct (enabled && negb (overlap_guard a1 a2 out)); [exists op; auto|].
  exists nop. split; [now right|]. now apply numpy_sound.
Qed.
(** the shape of the theorems below: [P] holds of pnumpy's answer and of NumPy's *)
Lemma float_either u f enabled nop a1 a2 out n s1 s2 so m (P : Z -> Z -> Z -> Prop) : known f -> closed_op (fsize f) nop ->
  (forall x y, 0 <= x < 2 ^ fwidth f -> 0 <= y < 2 ^ fwidth f -> P x y (fscalar u f x y) /\ P x y (nop x y)) ->
  0 <= n -> bytes_ok m -> out mod fsize f = 0 /\ so mod fsize f = 0 -> separate_call (fsize f) a1 s1 a2 s2 out so n ->
  let k := chosen enabled (Some (of_fentry (ftable u f))) nop a1 a2 out in
  (forall h, ~ call_faults k (fsize f) a1 a2 out n s1 s2 so h m) /\
  (forall h m', call_ends k (fsize f) a1 a2 out n s1 s2 so h m m' -> answered2 P (fsize f) a1 s1 a2 s2 out so n m m') /\
  (forall T zz sched, WORK_ITEM_BIG <= n -> 0 <= T ->
    exists more m', call_ends k (fsize f) a1 a2 out n s1 s2 so (Threaded T zz (sched ++ more)) m m').
Proof.
  intros K Hc HP Hn Hm Hal Hsc k. pose proof (fsize_good f K) as Hg.
  destruct (chosen_either enabled (of_fentry (ftable u f)) nop (fsize f) (fscalar u f) a1 a2 out Hg Hc (fentry_sound u f K)) as (op & Ho & Hk). fold k in Hk.
  pose proof (binary_call k _ _ Hg Hk a1 a2 out n s1 s2 so m Hn Hm Hal Hsc) as B. split; [intros h; apply B|]. split.
  - intros h m' H. destruct (proj2 (B h) m' H) as [E1 E2]. split; [|exact E2].
    intros i Hi. rewrite E1 by exact Hi. pose proof (good_pos _ Hg).
    assert (P1 : 0 <= ld (fsize f) m (a1 + i * s1) < 2 ^ fwidth f) by (apply fpat; [exact K|apply ld_pat; try lia; exact Hm]).
    assert (P2 : 0 <= ld (fsize f) m (a2 + i * s2) < 2 ^ fwidth f) by (apply fpat; [exact K|apply ld_pat; try lia; exact Hm]).
    destruct (HP _ _ P1 P2). destruct Ho as [-> | ->]; assumption.
  - intros T zz sched. now apply (binary_ends k _ _ Hg Hk).
Qed.

(** np.minimum and np.maximum of floats, whole call, alone or on threads: NumPy's answer unless the FIRST operand is a
    NaN, and then a NaN or the second operand (C44 shows the latter happens).  NumPy's own loop is right. *)
Theorem C71_float_min_max :
  forall (mx : bool) (f : fmt) (enabled : bool) (nop : Z -> Z -> Z) (a1 a2 out n s1 s2 so : Z) (m : bytes),
    known f -> (forall x y, pat (fsize f) x -> pat (fsize f) y -> pat (fsize f) (nop x y) /\ is_extreme mx f x y (nop x y)) ->
    0 <= n -> bytes_ok m -> out mod fsize f = 0 /\ so mod fsize f = 0 -> separate_call (fsize f) a1 s1 a2 s2 out so n ->
    let k := chosen enabled (Some (of_fentry (ftable (if mx then FMAX else FMIN) f))) nop a1 a2 out in
    (forall h, ~ call_faults k (fsize f) a1 a2 out n s1 s2 so h m) /\
    (forall h m', call_ends k (fsize f) a1 a2 out n s1 s2 so h m m' ->
      answered2 (fun x y r => (~ fnan f x -> is_extreme mx f x y r) /\ (fnan f x -> fnan f r \/ r = y)) (fsize f) a1 s1 a2 s2 out so n m m') /\
    (forall T zz sched, WORK_ITEM_BIG <= n -> 0 <= T ->
      exists more m', call_ends k (fsize f) a1 a2 out n s1 s2 so (Threaded T zz (sched ++ more)) m m').
Proof.
  intros mx f enabled nop a1 a2 out n s1 s2 so m K Hnop Hn Hm Hal Hsc.
  apply float_either; try assumption.
  - intros x y Hx Hy. now apply Hnop.
  - intros x y Hx Hy. split.
    + destruct (half_extreme mx f K x y Hx Hy) as [A B]. split; [exact A|]. intros N. right. now apply B.
    + rewrite <- !fpat in Hx, Hy by exact K. destruct (Hnop x y Hx Hy) as [_ E]. split; [tauto|]. intros N. left. apply E. now left.
Qed.

(** np.floor_divide of floats: NumPy's answer, or the floor of the correctly rounded quotient (C54) *)
Theorem C71_float_floor_divide :
  forall (f : fmt) (enabled : bool) (nop : Z -> Z -> Z) (a1 a2 out n s1 s2 so : Z) (m : bytes),
    known f -> closed_op (fsize f) nop ->
    0 <= n -> bytes_ok m -> out mod fsize f = 0 /\ so mod fsize f = 0 -> separate_call (fsize f) a1 s1 a2 s2 out so n ->
    let k := chosen enabled (Some (of_fentry (ftable FFLOORDIV f))) nop a1 a2 out in
    (forall h, ~ call_faults k (fsize f) a1 a2 out n s1 s2 so h m) /\
    (forall h m', call_ends k (fsize f) a1 a2 out n s1 s2 so h m m' ->
      answered2 (fun x y r => is_floor_of_rounded f x y r \/ r = nop x y) (fsize f) a1 s1 a2 s2 out so n m m') /\
    (forall T zz sched, WORK_ITEM_BIG <= n -> 0 <= T ->
      exists more m', call_ends k (fsize f) a1 a2 out n s1 s2 so (Threaded T zz (sched ++ more)) m m').
Proof.
  intros f enabled nop a1 a2 out n s1 s2 so m K Hnop Hn Hm Hal Hsc.
  apply float_either; try assumption. intros x y Hx Hy. split; [left; now apply floor_of_rounded|now right].
Qed.

(** Any replaced float ufunc: how the call is executed - alone, or on however many threads, in whatever interleaving -
    cannot be seen in a single bit of the result. *)
Theorem C71_float_threading_invisible :
  forall (u : fop) (f : fmt) (enabled : bool) (nop : Z -> Z -> Z) (a1 a2 out n s1 s2 so : Z) (m : bytes) h h' m1 m2,
    known f -> closed_op (fsize f) nop ->
    0 <= n -> bytes_ok m -> out mod fsize f = 0 /\ so mod fsize f = 0 -> separate_call (fsize f) a1 s1 a2 s2 out so n ->
    call_ends (chosen enabled (Some (of_fentry (ftable u f))) nop a1 a2 out) (fsize f) a1 a2 out n s1 s2 so h m m1 ->
    call_ends (chosen enabled (Some (of_fentry (ftable u f))) nop a1 a2 out) (fsize f) a1 a2 out n s1 s2 so h' m m2 ->
    (forall i, 0 <= i < n -> ld (fsize f) m1 (out + i * so) = ld (fsize f) m2 (out + i * so)) /\
    (forall x, (forall i, 0 <= i < n -> ~ (out + i * so <= x < out + i * so + fsize f)) -> m1 x = m2 x).
Proof.
  intros u f enabled nop a1 a2 out n s1 s2 so m h h' m1 m2 K Hc Hn Hm Hal Hsc H1 H2. pose proof (fsize_good f K) as Hg.
  destruct (chosen_either enabled (of_fentry (ftable u f)) nop (fsize f) (fscalar u f) a1 a2 out Hg Hc (fentry_sound u f K)) as (op & _ & Hk).
  destruct (proj2 (binary_call _ _ _ Hg Hk a1 a2 out n s1 s2 so m Hn Hm Hal Hsc h) m1 H1) as [A1 B1].
  destruct (proj2 (binary_call _ _ _ Hg Hk a1 a2 out n s1 s2 so m Hn Hm Hal Hsc h') m2 H2) as [A2 B2].
  split; [intros i Hi; rewrite A1, A2 by exact Hi; reflexivity|intros x Hx; rewrite B1, B2 by exact Hx; reflexivity].
Qed.
Print Assumptions C71_float_min_max.
Print Assumptions C71_float_floor_divide.
Print Assumptions C71_float_threading_invisible.

(** The hypotheses: 100000 int32 subtracted in place by a scalar, at an odd multiple of 4; three workers; it returns. *)
Example C71_nonvacuous :
  separate_call 4 4100 4 96 0 4100 4 100000 /\ 4100 mod isize INT32 = 0 /\ 4 mod isize INT32 = 0 /\ WORK_ITEM_BIG <= 100000 /\
  (exists sched m', call_ends (chosen true (Some (KPlain (s_sub 32) (v_sub 32))) (s_sub 32) 4100 96 4100) 4 4100 96 4100 100000 4 0 4 (Threaded 3 true sched) (fun _ => 7) m').
Proof.
  assert (Hsc : separate_call 4 4100 4 96 0 4100 4 100000) by (unfold separate_call, disj; intros i j; intros; lia).
  split; [exact Hsc|]. split; [reflexivity|]. split; [reflexivity|]. split; [unfold WORK_ITEM_BIG, WORK_ITEM_CHUNK; lia|].
  destruct (C71_integer_ufuncs SUB INT32 _ true (s_sub 32) 4100 96 4100 100000 4 0 4 (fun _ => 7) eq_refl) as (_ & _ & H).
  - reflexivity.
  - lia.
  - intros x. lia.
  - split; reflexivity.
  - exact Hsc.
  - intros i Hi. split; vm_compute; split; discriminate || reflexivity.
  - destruct (H 3 true [] ltac:(unfold WORK_ITEM_BIG, WORK_ITEM_CHUNK; lia) ltac:(lia)) as (more & m' & Hc). exists more, m'. exact Hc.
Qed.

(** NumPy's minimum exists: propagate a NaN first operand, otherwise as pnumpy *)
Example C71_min_max_nonvacuous : forall mx f, known f -> exists nop, forall x y, pat (fsize f) x -> pat (fsize f) y -> pat (fsize f) (nop x y) /\ is_extreme mx f x y (nop x y).
Proof.
  intros mx f K. exists (fun x y => if is_nan f x then x else fscalar (if mx then FMAX else FMIN) f x y). intros x y Hx Hy.
  destruct (classes f K x) as (Nx & _). destruct (is_nan f x) eqn:E.
  - split; [exact Hx|]. split; [intros _; now apply Nx|]. intros C. destruct C. now apply Nx.
  - split; [now apply fscalar_closed|]. rewrite fpat in Hx, Hy by exact K. destruct (half_extreme mx f K x y Hx Hy) as [A _]. apply A.
    intros C. apply Nx in C. discriminate C.
Qed.
