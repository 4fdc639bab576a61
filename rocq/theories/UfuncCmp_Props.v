(** UfuncCmp_Props.v - C72: comparison ufuncs on worker threads, end to end, in every interleaving of byte accesses. *)
From Verif Require Import Base Threads_Model Threads_Proofs Jobs_Model Sort_Model Kernel_Model Kernel_Proofs Kernel_Props
  Float_Model Compare_Model Compare_Proofs Compare_Props Ufunc_Model Ufunc_Proofs Ufunc_Kernel_Proofs UfuncCmp_Model.

(** ---------- specification ---------- *)
(** The arrays of the call: output bytes are distinct and lie in no input element of another position; for one-byte
    items with unit strides in no input element at all (C17 says what happens otherwise). *)
Definition separate_cmp (sz a1 s1 a2 s2 out so n : Z) : Prop :=
  (forall i j, 0 <= i < n -> 0 <= j < n -> i <> j ->
    out + i * so <> out + j * so /\ ~ (a1 + j * s1 <= out + i * so < a1 + j * s1 + sz) /\ ~ (a2 + j * s2 <= out + i * so < a2 + j * s2 + sz)) /\
  (sz = 1 -> s1 = 1 -> s2 = 1 -> so = 1 -> apart 1 a1 s1 a2 s2 out so n).

Definition cmp_faults (k : ckernel) a1 a2 out n s1 s2 so (h : how) (m : bytes) : Prop :=
  ufault_in (pckernel k a1 a2 out n s1 s2 so) (con_block k a1 a2 out s1 s2 so) n h m.
Definition cmp_ends (k : ckernel) a1 a2 out n s1 s2 so (h : how) (m m' : bytes) : Prop :=
  ucall (pckernel k a1 a2 out n s1 s2 so) (con_block k a1 a2 out s1 s2 so) n h m m'.

(** ---------- the byte programs run alone ---------- *)
Definition crun (k : ckernel) (a1 a2 out n s1 s2 so : Z) (m : bytes) : bytes :=
  match k with
  | KShape sz B cmp nreg W comp q once ret => CompareShape sz B cmp nreg W comp (q n) once ret a1 a2 out n s1 s2 so m
  | KAny sz cmp => CompareAny sz cmp a1 a2 out n s1 s2 so m
  | KCNumpy sz cmp => generic sz cmp a1 a2 out n s1 s2 so m
  end.
Lemma crun_table c t a1 a2 out n s1 s2 so m : crun (kGetComparisonOpFast c t) a1 a2 out n s1 s2 so m = GetComparisonOpFast c t a1 a2 out n s1 s2 so m.
Proof. destruct t as [[]| |], c; reflexivity. Qed.

Definition ksz (k : ckernel) : Z := match k with KShape sz _ _ _ _ _ _ _ _ => sz | KAny sz _ => sz | KCNumpy sz _ => sz end.
Definition regular (k : ckernel) : Prop :=
  match k with
  | KShape sz B cmp nreg W comp q once ret =>
      0 < sz /\ 0 < B / sz /\ B = (B / sz) * sz /\ 0 < nreg /\ W = nreg * (B / sz) /\
      (forall xs ys, Z.of_nat (length (comp xs ys)) <= W) /\ (forall n, 0 <= n -> 0 <= q n /\ q n * W <= n)
  | KAny sz _ | KCNumpy sz _ => 0 < sz
  end.

Section Foot.
  Variables (R W : Z -> Prop).
  Notation runs := (runs R W).
  Section Loops.
    Variables (sz B : Z) (cmp : Z -> Z -> bool) (nreg Wd : Z) (comp : list reg -> list reg -> list Z).
    Hypothesis Hs : 0 < sz.
    Lemma runs_cmp {A} x y out so n (k : bprog A) m m' :
      (forall i, 0 <= i < n -> elem_cov R sz x i /\ elem_cov R sz y i /\ W (out + i * so)) ->
      runs k (cmp_loop sz cmp x y out so n m) m' -> runs (pcmp_loop sz cmp x y out so n ;; k) m m'.
    Proof.
      intros Hc H. unfold pcmp_loop. eapply runs_forp; [|exact H].
      intros i m1 m1' k1 Hi H1. apply zrange_In in Hi. destruct (Hc i Hi) as (C1 & C2 & C3).
      rewrite runs_assoc. apply runs_prd; [lia|exact C1|]. rewrite runs_assoc. apply runs_prd; [lia|exact C2|].
      apply runs_pst; [lia| |exact H1]. intros z Hz. replace z with (out + i * so) by lia. exact C3.
    Qed.
    Hypothesis HB : 0 < B / sz /\ B = (B / sz) * sz.
    Hypothesis Hnr : 0 < nreg.
    Hypothesis HW : Wd = nreg * (B / sz).
    Hypothesis Hlen : forall xs ys, Z.of_nat (length (comp xs ys)) <= Wd.
    (** contiguous operand of n elements *)
    Lemma runs_prdr {A} o n k (f : reg -> bprog A) m m' : whole_cov R sz o n -> 0 <= k -> (k + 1) * (B / sz) <= n ->
      runs (f (rdr sz B m o k)) m m' -> runs (bind (prdr sz B o k) f) m m'.
    Proof.
      intros Hc Hk Hn H. destruct o as [p s|v]; cbn [prdr rdr bind] in *; [|exact H]. destruct Hc as [_ Hc].
      apply (runs_mapp _ _ _ (fun m l => ld sz m (p + B * k + l * sz))); [|exact H].
      intros i ki Hi Hki. apply zrange_In in Hi. apply runs_pld; [lia| |exact Hki].
      eapply cover_sub; [exact Hc| |]; nia.
    Qed.
    Lemma runs_pregs {A} o n k (f : list reg -> bprog A) m m' : whole_cov R sz o n -> 0 <= k -> (k + 1) * Wd <= n ->
      runs (f (regs sz B nreg m o k)) m m' -> runs (bind (pregs sz B nreg o k) f) m m'.
    Proof.
      intros Hc Hk Hn H. unfold pregs. apply (runs_mapp _ _ _ (fun m r => rdr sz B m o (nreg * k + r))); [|exact H].
      intros i ki Hi Hki. apply zrange_In in Hi. apply (runs_prdr o n); [exact Hc|nia|nia|exact Hki].
    Qed.
    Lemma runs_round {A} x y out n q (k : bprog A) m m' : whole_cov R sz x n -> whole_cov R sz y n -> cover W out n ->
      0 <= q -> q * Wd <= n ->
      runs k (round_loop sz B nreg Wd comp x y out q m) m' -> runs (pround_loop sz B nreg Wd comp x y out q ;; k) m m'.
    Proof.
      intros Cx Cy Co Hq Hn H. unfold pround_loop. assert (0 < Wd) by (rewrite HW; nia). eapply runs_forp; [|exact H].
      intros i m1 m1' k1 Hi H1. apply zrange_In in Hi.
      rewrite runs_assoc. apply (runs_pregs x n); [exact Cx|lia|nia|]. rewrite runs_assoc. apply (runs_pregs y n); [exact Cy|lia|nia|].
      apply runs_pstorev; [lia| |exact H1]. eapply cover_sub; [exact Co|nia|]. pose proof (Hlen (regs sz B nreg m1 x i) (regs sz B nreg m1 y i)). nia.
    Qed.
    (** a tail operand: a program that yields it *)
    Definition tail_ok (n q : Z) (p : bprog opd) (t : bytes -> opd) : Prop :=
      forall A (k : opd -> bprog A) m m', runs (k (t m)) m m' -> runs (bind p k) m m'.
    Definition tail_cov (n q : Z) (o : opd) : Prop := forall i, 0 <= i < n - q * Wd -> elem_cov R sz o i.
    Lemma runs_pfast {A} vx vy px py tx ty out n q (k : bprog A) m m' :
      whole_cov R sz vx n -> whole_cov R sz vy n -> cover W out n -> 0 <= q -> q * Wd <= n ->
      tail_ok n q px tx -> tail_ok n q py ty -> (forall m1, tail_cov n q (tx m1)) -> (forall m1, tail_cov n q (ty m1)) ->
      runs k (fast sz B cmp nreg Wd comp vx vy tx ty out n q m) m' -> runs (pfast sz B cmp nreg Wd comp vx vy px py out n q ;; k) m m'.
    Proof.
      intros Cx Cy Co Hq Hn Tx Ty Kx Ky H. unfold pfast, fast in *. cbv zeta in *. assert (0 < Wd) by (rewrite HW; nia).
      rewrite runs_assoc. apply (runs_round vx vy out n); try assumption.
      rewrite runs_assoc. apply Tx. rewrite runs_assoc. apply Ty. apply runs_cmp; [|exact H].
      intros i Hi. split; [now apply Kx|]. split; [now apply Ky|]. apply Co. nia.
    Qed.
  End Loops.

  Lemma cruns k a1 a2 out n s1 s2 so m : regular k -> 0 <= n ->
    (forall i, 0 <= i < n -> cover R (a1 + i * s1) (ksz k)) -> (forall i, 0 <= i < n -> cover R (a2 + i * s2) (ksz k)) ->
    (forall i, 0 <= i < n -> W (out + i * so)) -> cover R a1 (ksz k) -> cover R a2 (ksz k) ->
    runs (pckernel k a1 a2 out n s1 s2 so) m (crun k a1 a2 out n s1 s2 so m).
  Proof.
    intros Hr Hn C1 C2 CO Z1 Z2. apply (runs_bind_ret _ _ _ tt). set (m' := crun k a1 a2 out n s1 s2 so m).
    assert (H : runs (Ret tt) m' m') by (cbn; reflexivity).
    assert (Gen : forall sz cmp, 0 < sz -> ksz k = sz -> m' = generic sz cmp a1 a2 out n s1 s2 so m ->
      runs (pgeneric sz cmp a1 a2 out n s1 s2 so ;; Ret tt) m m').
    { intros sz cmp Hs E Em. unfold pgeneric. apply runs_cmp; [exact Hs| |].
      - intros i Hi. cbn [elem_cov]. rewrite <- E. auto.
      - rewrite Em. cbn. reflexivity. }
    assert (K : forall sz a s, 0 < sz -> (forall i, 0 <= i < n -> cover R (a + i * s) sz) -> s = sz -> cover R a (n * sz)).
    { intros sz a s Hs Hc -> x Hx. apply (Hc ((x - a) / sz)).
      - split; [apply Z.div_pos; lia|apply Z.div_lt_upper_bound; lia].
      - pose proof (Z.div_mod (x - a) sz ltac:(lia)). pose proof (Z.mod_pos_bound (x - a) sz Hs). nia. }
    assert (KO : so = 1 -> cover W out n) by (intros E x Hx; replace x with (out + (x - out) * so) by nia; apply CO; lia).
    destruct k as [sz B cmp nreg Wd comp q once ret|sz cmp|sz cmp]; cbn [pckernel crun ksz regular] in *; fold m'.
    - destruct Hr as (Hs & HL & HB & Hnr & HW & Hlen & Hq). destruct (Hq n Hn) as [Hq0 Hqn]. set (Q := q n) in *.
      assert (V : forall v, whole_cov R sz (Val v) n) by (intros v; exact Logic.I).
      assert (S1 : s1 = sz -> whole_cov R sz (Ptr a1 sz) n) by (intros E; split; [reflexivity|exact (K sz a1 s1 Hs C1 E)]).
      assert (S2 : s2 = sz -> whole_cov R sz (Ptr a2 sz) n) by (intros E; split; [reflexivity|exact (K sz a2 s2 Hs C2 E)]).
      assert (Trest : forall a, tail_ok n Q (Ret (Ptr (a + B * nreg * Q) sz)) (fun _ => Ptr (a + B * nreg * Q) sz)) by (intros a A k m1 m2 Hk; exact Hk).
      assert (Tscal : forall a, cover R a sz -> tail_ok n Q (if once then (let! v := pld sz a in Ret (Val v)) else Ret (Ptr a 0)) (if once then (fun m1 => Val (ld sz m1 a)) else (fun _ => Ptr a 0))).
      { intros a Ca A k m1 m2 Hk. destruct once; [|exact Hk]. rewrite runs_assoc. apply runs_pld; [lia|exact Ca|exact Hk]. }
      assert (Crest : forall a (s : Z), cover R a (n * sz) -> forall m1 : bytes, tail_cov sz Wd n Q ((fun _ => Ptr (a + B * nreg * Q) sz) m1)).
      { intros a s Ca m1 i Hi. cbn. assert (B * nreg = Wd * sz) as -> by (rewrite HW, HB at 1; ring).
        assert (0 <= Wd * sz * Q + i * sz) by (assert (0 < Wd) by (rewrite HW; nia); nia).
        assert (Wd * sz * Q + i * sz + sz <= n * sz) by (replace (Wd * sz * Q + i * sz + sz) with ((Q * Wd + i + 1) * sz) by ring; nia).
        eapply cover_sub; [exact Ca| |]; lia. }
      assert (Cscal : forall a, cover R a sz -> forall m1 : bytes, tail_cov sz Wd n Q ((if once then (fun m1 => Val (ld sz m1 a)) else (fun _ => Ptr a 0)) m1)).
      { intros a Ca m1 i Hi. destruct once; cbn; [exact Logic.I|]. replace (a + i * 0) with a by lia. exact Ca. }
      assert (HBB : 0 < B / sz /\ B = B / sz * sz) by (split; assumption).
      subst m'. unfold CompareShape, pCompareShape in *. cbv zeta in *.
      destruct (Z.eqb_spec so 1) as [Eo|]; [|now apply Gen].
      specialize (KO Eo).
      destruct (Z.eqb_spec s1 0) as [E1|E1].
      { destruct (Z.eqb_spec s2 sz) as [E2|]; [|now apply Gen].
        rewrite runs_assoc. apply runs_pld; [lia|exact Z1|].
        eapply runs_pfast; try exact H; auto. apply (Crest a2 s2), (K sz a2 s2); assumption. }
      destruct (Z.eqb_spec s2 0) as [E2|E2].
      { destruct (Z.eqb_spec s1 sz) as [E3|]; [|now apply Gen].
        rewrite runs_assoc. apply runs_pld; [lia|exact Z2|].
        eapply runs_pfast; try exact H; auto. apply (Crest a1 s1), (K sz a1 s1); assumption. }
      destruct (Z.eqb_spec s1 sz) as [E3|]; [|now apply Gen].
      destruct (Z.eqb_spec s2 sz) as [E4|]; [|now apply Gen]. cbn [andb] in *.
      rewrite runs_assoc.
      apply (runs_pfast sz B cmp nreg Wd comp Hs HBB Hnr HW Hlen _ _ _ _ (fun _ => Ptr (a1 + B * nreg * Q) sz) (fun _ => Ptr (a2 + B * nreg * Q) sz)); auto.
      { apply (Crest a1 s1), (K sz a1 s1); assumption. }
      { apply (Crest a2 s2), (K sz a2 s2); assumption. }
      destruct ret; [exact H|]. unfold pgeneric. apply runs_cmp; [exact Hs| |exact H].
      assert (0 < Wd) by (rewrite HW; nia). intros i Hi. cbn [elem_cov]. split; [apply C1; nia|]. split; [apply C2; nia|apply CO; nia].
    - assert (P : forall x y o s, (forall i, 0 <= i < n -> elem_cov R sz x i) -> (forall i, 0 <= i < n -> elem_cov R sz y i) -> o = out -> s = so ->
         m' = cmp_loop sz cmp x y out so n m -> runs (pcmp_loop sz cmp x y o s n ;; Ret tt) m m').
      { intros x y o s Hx Hy -> -> Em. apply runs_cmp; [exact Hr| |rewrite Em; cbn; reflexivity]. intros i Hi. auto. }
      unfold CompareAny in m'. unfold pCompareAny.
      destruct (Z.eqb_spec so 1) as [Eo|]; [|now apply Gen].
      destruct (Z.eqb_spec s1 0) as [E1|E1].
      { destruct (Z.eqb_spec s2 sz) as [E2|]; [|now apply Gen].
        rewrite runs_assoc. apply runs_pld; [lia|exact Z1|]. apply P; auto; [intros; exact Logic.I| |].
        - intros i Hi. cbn. rewrite <- E2 at 1. now apply C2.
        - unfold m'. rewrite Eo. reflexivity. }
      destruct (Z.eqb_spec s2 0) as [E2|E2].
      { destruct (Z.eqb_spec s1 sz) as [E3|]; [|now apply Gen].
        rewrite runs_assoc. apply runs_pld; [lia|exact Z2|]. apply P; auto; [|intros; exact Logic.I|].
        - intros i Hi. cbn. rewrite <- E3 at 1. now apply C1.
        - unfold m'. rewrite Eo. reflexivity. }
      destruct (Z.eqb_spec s2 sz) as [E3|]; [|now apply Gen].
      destruct (Z.eqb_spec s1 sz) as [E4|]; [|now apply Gen]. cbn [andb] in *.
      apply P; auto.
      + intros i Hi. cbn. rewrite <- E4 at 1. now apply C1.
      + intros i Hi. cbn. rewrite <- E3 at 1. now apply C2.
      + unfold m'. rewrite Eo. reflexivity.
    - apply Gen; auto.
  Qed.
End Foot.

(** ---------- the kernels of the table ---------- *)
Lemma lanes2_le_r f : forall x y, (length (lanes2 f x y) <= length y)%nat.
Proof. induction x as [|a x IH]; intros [|b y]; cbn; try lia. specialize (IH y). lia. Qed.
Lemma word_bytes_len k : forall v, length (word_bytes k v) = k.
Proof. induction k; intros v; cbn; [reflexivity|]. now rewrite IHk. Qed.
Lemma extract_le m i : (length (extract128 m i) <= 16)%nat.
Proof. unfold extract128. apply firstn_le_length. Qed.
Lemma four_le f W : 0 <= W -> (forall a b c d e g h i, Z.of_nat (length (f a b c d e g h i)) <= W) ->
  forall xs ys, Z.of_nat (length (four f xs ys)) <= W.
Proof.
  intros HW H xs ys. unfold four.
  destruct xs as [|? [|? [|? [|? [|]]]]]; cbn [length]; try lia; destruct ys as [|? [|? [|? [|? [|]]]]]; cbn [length]; try lia. apply H.
Qed.
Lemma one_le f W : 0 <= W -> (forall a b, Z.of_nat (length (f a b)) <= W) -> forall xs ys, Z.of_nat (length (one f xs ys)) <= W.
Proof.
  intros HW H xs ys. unfold one. destruct xs as [|? [|]]; cbn [length]; try lia; destruct ys as [|? [|]]; cbn [length]; try lia. apply H.
Qed.
Lemma rounds_ok k n : 0 < k -> 0 <= n -> 0 <= n / k /\ n / k * k <= n.
Proof. intros Hk Hn. pose proof (Z.div_mod n k ltac:(lia)). pose proof (Z.mod_pos_bound n k Hk). pose proof (Z.div_pos n k ltac:(lia) Hk). lia. Qed.
Lemma rounds64_ok n : 0 <= n -> 0 <= rounds64 n /\ rounds64 n * 16 <= n.
Proof. intros Hn. unfold rounds64. pose proof (Z.div_mod (n - 16 + 15) 16 ltac:(lia)). pose proof (Z.mod_pos_bound (n - 16 + 15) 16 ltac:(lia)). lia. Qed.

Ltac len_tac := first
  [ apply four_le; [lia|]; intros; cbv [COMP32i_EQS float_round]; etransitivity; [apply inj_le, lanes2_le_r|cbn; lia]
  | apply four_le; [lia|]; intros; cbv [double_round]; etransitivity; [apply inj_le, firstn_le_length|cbn; lia]
  | apply four_le; [lia|]; intros; cbv [COMP64i_EQ COMP64i_NE COMP64i_GT COMP64i_LT COMP64i_GE COMP64i_LE COMP64i]; etransitivity; [apply inj_le, extract_le|cbn; lia]
  | apply one_le; [lia|]; intros; rewrite word_bytes_len; cbn; lia
  | apply one_le; [lia|]; intros; etransitivity; [apply inj_le, extract_le|cbn; lia]
  | apply one_le; [lia|]; intros; etransitivity; [apply inj_le, lanes2_le_r|cbn; lia] ].
Lemma table_regular c t : regular (kGetComparisonOpFast c t) /\ ksz (kGetComparisonOpFast c t) = csize t.
Proof.
  destruct t as [[]| |], c;
    cbv [kGetComparisonOpFast kCompareAny kCompareFloat kCompareDouble kCompareInt64 kCompareInt32S kCompareInt32 kCompareInt16 kCompareInt8 regular ksz csize isize];
    split; try reflexivity; try lia;
    repeat match goal with |- _ /\ _ => split end; try reflexivity; try lia; try (intros; apply rounds_ok; lia); try (intros; now apply rounds64_ok); len_tac.
Qed.

(** ---------- a call ---------- *)
Lemma separate_cmp_ok sz a1 s1 a2 s2 out so n c l : separate_cmp sz a1 s1 a2 s2 out so n -> 0 <= c -> c + l <= n ->
  cmp_operands sz (a1 + c * s1) s1 (a2 + c * s2) s2 (out + c * so) so l /\
  (sz = 1 -> s1 = 1 -> s2 = 1 -> so = 1 -> apart 1 (a1 + c * s1) s1 (a2 + c * s2) s2 (out + c * so) so l).
Proof.
  intros [H H1] Hc Hl. split.
  - unfold cmp_operands, separate, outs_separate, no_clobber2. split; [|split].
    + intros i j Hi Hj Hne. replace (out + c * so + i * so) with (out + (c + i) * so) by ring.
      replace (out + c * so + j * so) with (out + (c + j) * so) by ring. unfold disj.
      destruct (H (c + i) (c + j) ltac:(lia) ltac:(lia) ltac:(lia)) as [D _]. lia.
    + intros i j Hi Hj. replace (out + c * so + j * so) with (out + (c + j) * so) by ring.
      replace (a1 + c * s1 + i * s1) with (a1 + (c + i) * s1) by ring. apply (H (c + j) (c + i)); lia.
    + intros i j Hi Hj. replace (out + c * so + j * so) with (out + (c + j) * so) by ring.
      replace (a2 + c * s2 + i * s2) with (a2 + (c + i) * s2) by ring. apply (H (c + j) (c + i)); lia.
  - intros E1 E2 E3 E4 i j Hi Hj. specialize (H1 E1 E2 E3 E4 (c + i) (c + j) ltac:(lia) ltac:(lia)).
    replace (out + c * so + j * so) with (out + (c + j) * so) by ring.
    replace (a2 + c * s2 + i * s2) with (a2 + (c + i) * s2) by ring.
    replace (a1 + c * s1 + i * s1) with (a1 + (c + i) * s1) by ring. exact H1.
Qed.
Definition csound (k : ckernel) (sz : Z) (cmp : Z -> Z -> bool) : Prop :=
  forall a1 a2 out n s1 s2 so m, 0 <= n -> bytes_ok m -> cmp_operands sz a1 s1 a2 s2 out so n ->
    (sz = 1 -> s1 = 1 -> s2 = 1 -> so = 1 -> apart 1 a1 s1 a2 s2 out so n) ->
    did sz cmp a1 s1 a2 s2 out so n m (crun k a1 a2 out n s1 s2 so m).

Section Cmp.
  Variables (k : ckernel) (sz : Z) (cmp : Z -> Z -> bool).
  Hypothesis Hr : regular k.
  Hypothesis Hsz : ksz k = sz.
  Hypothesis Hs : 0 < sz.
  Hypothesis Hk : csound k sz cmp.
  Variables (a1 a2 out n s1 s2 so : Z) (m : bytes).
  Hypothesis Hn : 0 <= n.
  Hypothesis Hm : bytes_ok m.
  Hypothesis Hsc : separate_cmp sz a1 s1 a2 s2 out so n.
  Let F i := b2z (cmp (ld sz m (a1 + i * s1)) (ld sz m (a2 + i * s2))).
  Let R lb := reads2 sz (a1 + WORK_ITEM_CHUNK * lb * s1) s1 (a2 + WORK_ITEM_CHUNK * lb * s2) s2 (blen n lb).

  Lemma cmp_whole : exists R' m', runs R' (writes 1 out so n) (pckernel k a1 a2 out n s1 s2 so) m m' /\ outputs 1 out so n F m m'.
  Proof.
    destruct (separate_cmp_ok sz a1 s1 a2 s2 out so n 0 n Hsc ltac:(lia) ltac:(lia)) as [Ho Ha].
    replace (a1 + 0 * s1) with a1 in * by lia. replace (a2 + 0 * s2) with a2 in * by lia. replace (out + 0 * so) with out in * by lia.
    destruct (Hk a1 a2 out n s1 s2 so m Hn Hm Ho Ha) as [D1 D2].
    exists (fun _ => True), (crun k a1 a2 out n s1 s2 so m). split.
    - apply cruns; auto; try (intros i Hi x Hx; exact Logic.I); try (intros x Hx; exact Logic.I). intros i Hi. exists i. lia.
    - split; [intros i Hi; rewrite ld1; now apply D1|]. intros x Hx. apply D2. intros i Hi E. apply (Hx i Hi). lia.
  Qed.
  Lemma cmp_block lb : 0 <= lb < BL n -> exists m', runs (R lb) (writes 1 (out + WORK_ITEM_CHUNK * lb * so) so (blen n lb)) (con_block k a1 a2 out s1 s2 so lb (blen n lb)) m m' /\
    (forall i, 0 <= i < blen n lb -> ld 1 m' (out + (WORK_ITEM_CHUNK * lb + i) * so) = F (WORK_ITEM_CHUNK * lb + i)).
  Proof.
    intros Hlb. pose proof (blen_pos n lb Hlb) as Hp.
    pose proof (proj1 (blen_elems n lb (CH * lb + blen n lb - 1) Hlb) ltac:(lia)) as [He _].
    set (c := WORK_ITEM_CHUNK * lb) in *. change (CH * lb) with c in He.
    destruct (separate_cmp_ok sz a1 s1 a2 s2 out so n c (blen n lb) Hsc ltac:(unfold c, WORK_ITEM_CHUNK; lia) ltac:(lia)) as [Ho Ha].
    destruct (Hk _ _ _ (blen n lb) _ _ _ m ltac:(lia) Hm Ho Ha) as [D1 _].
    eexists. split.
    - unfold con_block, R. fold c.
      assert (C1 : forall i, 0 <= i < blen n lb -> cover (reads2 sz (a1 + c * s1) s1 (a2 + c * s2) s2 (blen n lb)) (a1 + c * s1 + i * s1) sz) by (intros i Hi x Hx; exists i; auto).
      assert (C2 : forall i, 0 <= i < blen n lb -> cover (reads2 sz (a1 + c * s1) s1 (a2 + c * s2) s2 (blen n lb)) (a2 + c * s2 + i * s2) sz) by (intros i Hi x Hx; exists i; auto).
      apply cruns; rewrite ?Hsz; auto; try lia.
      + intros i Hi. exists i. lia.
      + specialize (C1 0 ltac:(lia)). now replace (a1 + c * s1 + 0 * s1) with (a1 + c * s1) in C1 by lia.
      + specialize (C2 0 ltac:(lia)). now replace (a2 + c * s2 + 0 * s2) with (a2 + c * s2) in C2 by lia.
    - intros i Hi. rewrite ld1. replace (out + (c + i) * so) with (out + c * so + i * so) by ring. rewrite D1 by exact Hi. unfold F.
      f_equal; f_equal; f_equal; ring.
  Qed.
  Lemma cmp_sep lb lb' x : 0 <= lb < BL n -> 0 <= lb' < BL n -> lb <> lb' ->
    writes 1 (out + WORK_ITEM_CHUNK * lb * so) so (blen n lb) x ->
    ~ R lb' x /\ ~ writes 1 (out + WORK_ITEM_CHUNK * lb' * so) so (blen n lb') x.
  Proof.
    intros Hb Hb' Hne (i & Hi & Hx).
    assert (Hin : forall l j, 0 <= l < BL n -> 0 <= j < blen n l -> 0 <= CH * l + j < n /\ (CH * l + j) / CH = l)
      by (intros l j Hl Hj; apply (blen_elems n l (CH * l + j) Hl); lia).
    destruct (Hin lb i Hb Hi) as [I1 I2].
    assert (Hx' : x = out + (CH * lb + i) * so) by (unfold CH; lia).
    split; intros (j & Hj & Hq); destruct (Hin lb' j Hb' Hj) as [J1 J2];
      destruct (proj1 Hsc (CH * lb + i) (CH * lb' + j) I1 J1 ltac:(congruence)) as (D0 & D1 & D2).
    - destruct Hq as [Hq|Hq].
      + apply D1. rewrite <- Hx'. unfold CH. lia.
      + apply D2. rewrite <- Hx'. unfold CH. lia.
    - apply D0. rewrite <- Hx'. unfold CH. lia.
  Qed.

  Lemma cmp_call h : ~ cmp_faults k a1 a2 out n s1 s2 so h m /\
    (forall m', cmp_ends k a1 a2 out n s1 s2 so h m m' -> did sz cmp a1 s1 a2 s2 out so n m m').
  Proof.
    destruct (call_rule _ _ 1 out so n F m R ltac:(lia) cmp_whole cmp_block cmp_sep h) as [H1 H2]. split; [exact H1|].
    intros m' H. destruct (H2 m' H) as [O1 O2]. split.
    - intros i Hi. rewrite <- ld1. now apply O1.
    - intros b Hb. apply O2. intros i Hi ?. apply (Hb i Hi). lia.
  Qed.
  Lemma cmp_can_end T zz sched : WORK_ITEM_BIG <= n -> 0 <= T ->
    exists more m', cmp_ends k a1 a2 out n s1 s2 so (Threaded T zz (sched ++ more)) m m'.
  Proof. exact (call_can_return _ _ 1 out so n F m R Hn cmp_block cmp_sep T zz sched). Qed.
End Cmp.

Lemma csound_ext k sz cmp cmp' : 0 < sz -> (forall x y, pat sz x -> pat sz y -> cmp x y = cmp' x y) -> csound k sz cmp -> csound k sz cmp'.
Proof.
  intros Hs H Hk a1 a2 out n s1 s2 so m Hn Hm Ho Ha. destruct (Hk a1 a2 out n s1 s2 so m Hn Hm Ho Ha) as [D1 D2].
  split; [|exact D2]. intros i Hi. rewrite D1 by exact Hi. f_equal. apply H; apply ld_pat; try lia; exact Hm.
Qed.
Lemma csize_pos t : 0 < csize t.
Proof. destruct t as [[]| |]; cbn; lia. Qed.
Lemma cchosen_sound enabled c t ncmp : (forall x y, pat (csize t) x -> pat (csize t) y -> ncmp x y = meant c t x y) ->
  let k := cchosen enabled c t (csize t) ncmp in regular k /\ ksz k = csize t /\ csound k (csize t) (meant c t).
Proof.
  intros H. pose proof (csize_pos t) as Hp. destruct enabled; cbn [cchosen].
  - destruct (table_regular c t) as [T1 T2]. split; [exact T1|]. split; [exact T2|].
    intros a1 a2 out n s1 s2 so m Hn Hm Ho Ha. rewrite crun_table. now apply entry_did.
  - split; [exact Hp|]. split; [reflexivity|]. apply (csound_ext _ _ ncmp); [exact Hp|exact H|].
    intros a1 a2 out n s1 s2 so m Hn Hm Ho Ha. cbn [crun]. unfold generic. apply loop_did; auto; lia.
Qed.

(** ---------- C72 ---------- *)
(** Every comparison of every integer, boolean and float type; pnumpy's loop or NumPy's ([ncmp], any predicate that is
    the comparison on the values of the type); every length, strides and contents; alone or on any number of workers in
    any interleaving of byte accesses: no fault, every output byte is 1 or 0 as the comparison of the ORIGINAL inputs
    holds or not, no other byte changes, and a threaded call can always still be brought to return. *)
Theorem C72_comparisons :
  forall (c : cop) (t : cty) (enabled : bool) (ncmp : Z -> Z -> bool) (a1 a2 out n s1 s2 so : Z) (m : bytes),
    (forall x y, pat (csize t) x -> pat (csize t) y -> (ncmp x y = true <-> holds c t x y)) ->
    0 <= n -> bytes_ok m -> separate_cmp (csize t) a1 s1 a2 s2 out so n ->
    let k := cchosen enabled c t (csize t) ncmp in
    (forall h, ~ cmp_faults k a1 a2 out n s1 s2 so h m) /\
    (forall h m', cmp_ends k a1 a2 out n s1 s2 so h m m' -> compared c t a1 s1 a2 s2 out so n m m') /\
    (forall T zz sched, WORK_ITEM_BIG <= n -> 0 <= T ->
      exists more m', cmp_ends k a1 a2 out n s1 s2 so (Threaded T zz (sched ++ more)) m m').
Proof.
  intros c t enabled ncmp a1 a2 out n s1 s2 so m Hnc Hn Hm Hsc k.
  assert (Hag : forall x y, pat (csize t) x -> pat (csize t) y -> ncmp x y = meant c t x y).
  { intros x y Hx Hy. pose proof (Hnc x y Hx Hy) as A. pose proof (meant_holds c t x y Hx Hy) as B.
    destruct (ncmp x y), (meant c t x y); try reflexivity; exfalso.
    - assert (false = true) by (apply B, A; reflexivity). discriminate.
    - assert (false = true) by (apply A, B; reflexivity). discriminate. }
  destruct (cchosen_sound enabled c t ncmp Hag) as (K1 & K2 & K3). fold k in K1, K2, K3. pose proof (csize_pos t) as Hp.
  pose proof (cmp_call k _ _ K1 K2 K3 a1 a2 out n s1 s2 so m Hn Hm Hsc) as B. split; [intros h; apply B|]. split.
  - intros h m' H. apply did_compared with (cmp := meant c t); [exact Hm|intros; now apply meant_holds|]. exact (proj2 (B h) m' H).
  - intros T zz sched. now apply (cmp_can_end k _ _ K1 K2 K3).
Qed.
Print Assumptions C72_comparisons.

(** Whichever of two executions of the same call was threaded, and whichever used pnumpy's loop: the same memory. *)
Theorem C72_threading_invisible :
  forall (c : cop) (t : cty) (enabled enabled' : bool) (ncmp : Z -> Z -> bool) (a1 a2 out n s1 s2 so : Z) (m : bytes) h h' m1 m2,
    (forall x y, pat (csize t) x -> pat (csize t) y -> (ncmp x y = true <-> holds c t x y)) ->
    0 <= n -> bytes_ok m -> separate_cmp (csize t) a1 s1 a2 s2 out so n ->
    cmp_ends (cchosen enabled c t (csize t) ncmp) a1 a2 out n s1 s2 so h m m1 ->
    cmp_ends (cchosen enabled' c t (csize t) ncmp) a1 a2 out n s1 s2 so h' m m2 ->
    (forall i, 0 <= i < n -> m1 (out + i * so) = m2 (out + i * so)) /\
    (forall b, (forall i, 0 <= i < n -> b <> out + i * so) -> m1 b = m2 b).
Proof.
  intros c t en en' ncmp a1 a2 out n s1 s2 so m h h' m1 m2 Hnc Hn Hm Hsc H1 H2.
  destruct (C72_comparisons c t en ncmp a1 a2 out n s1 s2 so m Hnc Hn Hm Hsc) as (_ & A & _). destruct (A h m1 H1) as [A1 A2].
  destruct (C72_comparisons c t en' ncmp a1 a2 out n s1 s2 so m Hnc Hn Hm Hsc) as (_ & B & _). destruct (B h' m2 H2) as [B1 B2].
  split.
  - intros i Hi. specialize (A1 i Hi). specialize (B1 i Hi). cbv zeta in *. intuition congruence.
  - intros b Hb. rewrite A2, B2 by exact Hb. reflexivity.
Qed.

(** The hypotheses: 100000 float64 against a scalar, output behind the inputs; three workers; it returns. *)
Example C72_nonvacuous :
  separate_cmp 8 4096 8 96 0 1000000 1 100000 /\
  (exists sched m', cmp_ends (cchosen true CMP_LT DOUBLE 8 (meant CMP_LT DOUBLE)) 4096 96 1000000 100000 8 0 1 (Threaded 3 true sched) (fun _ => 7) m').
Proof.
  assert (Hsc : separate_cmp 8 4096 8 96 0 1000000 1 100000) by (split; [intros i j; intros; lia|lia]).
  split; [exact Hsc|].
  destruct (C72_comparisons CMP_LT DOUBLE true (meant CMP_LT DOUBLE) 4096 96 1000000 100000 8 0 1 (fun _ => 7)) as (_ & _ & H).
  - intros x y Hx Hy. now apply meant_holds.
  - lia.
  - intros x. lia.
  - exact Hsc.
  - destruct (H 3 true [] ltac:(unfold WORK_ITEM_BIG, WORK_ITEM_CHUNK; lia) ltac:(lia)) as (more & m' & Hc). exists more, m'. exact Hc.
Qed.
