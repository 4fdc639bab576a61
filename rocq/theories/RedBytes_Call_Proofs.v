(** RedBytes_Call_Proofs.v - a reduction call of RedBytes_Model.v, alone or on threads with store buffers: what it leaves in
    memory, in terms of the kernels of Reduce_Model.v. *)
From Verif Require Import Base Threads_Model Threads_Proofs Reduce_Model Reduce_Proofs Reduce_Props Sum_Props
  Jobs_Model Sort_Model Kernel_Model Kernel_Proofs Kernel_Props Ufunc_Model Ufunc_Proofs Ufunc_Kernel_Proofs RedBytes_Model RedBytes_Proofs.

(** the value a kernel computes when its operation is [op] *)
Definition kval (k : rkernel) (op : Z -> Z -> Z) (sz : Z) : (Z -> Z) -> Z -> Z -> Z -> Z -> Z :=
  match k with RFast _ _ => ReduceMathOpFast op (perReg sz) sz | RNumpy _ => numpy_loop op end.
Definition ksound (k : rkernel) (op : Z -> Z -> Z) (ok : Z -> Prop) : Prop :=
  match k with
  | RFast o ov => forall x y, ok x -> ok y -> o x y = op x y /\ ov x y = op x y /\ ok (op x y)
  | RNumpy o => forall x y, ok x -> ok y -> o x y = op x y /\ ok (op x y)
  end.
(** on threads: one value per chunk, then these from the caller's start value *)
Definition threaded_value (k : rkernel) (op : Z -> Z -> Z) (sz : Z) (rd : Z -> Z) (inp stride start init n : Z) : Z :=
  kval k op sz (fun a => kval k op sz rd (inp + WORK_ITEM_CHUNK * (a / sz) * stride) start (Z.min WORK_ITEM_CHUNK (n - WORK_ITEM_CHUNK * (a / sz))) stride)
    0 init (chunks_of n) sz.

Lemma kval_local k op sz rd rd' p p' s n stride : good_sz sz -> 0 <= n ->
  (forall i, 0 <= i < n -> rd (p + i * stride) = rd' (p' + i * stride)) -> kval k op sz rd p s n stride = kval k op sz rd' p' s n stride.
Proof.
  intros Hg Hn H. pose proof (good_pos sz Hg). destruct (perReg_props sz Hg) as (_ & Lp & _). destruct k; cbn [kval].
  - now apply reads_elements.
  - unfold numpy_loop. apply fold_left_ext_in. intros a i Hi. apply zrange_In in Hi. f_equal. now apply H.
Qed.

Lemma blen_min n lb : 0 <= lb < BL n -> blen n lb = Z.min WORK_ITEM_CHUNK (n - WORK_ITEM_CHUNK * lb) /\ 0 < blen n lb.
Proof.
  intros Hw. split; [|now apply blen_pos]. change WORK_ITEM_CHUNK with 16384. unfold blen. rewrite land_mask. unfold BL in *. rewrite CH_val in *.
  destruct (Z.eqb_spec (lb + 1) ((n + (16384 - 1)) / 16384)) as [E1|E1].
  - destruct (negb (n mod 16384 =? 0)) eqn:E2; lia.
  - lia.
Qed.
Lemma chunks_BL n : chunks_of n = BL n.
Proof. unfold chunks_of, BL. change WORK_ITEM_CHUNK with 16384. rewrite CH_val. lia. Qed.

Section Call.
  Variables (k : rkernel) (op : Z -> Z -> Z) (ok : Z -> Prop) (sz : Z).
  Hypothesis Hg : good_sz sz.
  Hypothesis Hk : ksound k op ok.
  Hypothesis Hpat : forall x, ok x -> pat sz x.
  Let Hs : 0 < sz := good_pos sz Hg.

  (** unthreaded, and the last pass: read [n] elements and *op1, write *op1 *)
  Lemma whole_runs pin pout n stride m : 0 <= n -> ok (ld sz m pout) -> (forall i, 0 <= i < n -> ok (ld sz m (pin + i * stride))) ->
    let v := kval k op sz (ld sz m) pin (ld sz m pout) n stride in
    ok v /\ runs (fun _ => True) (fun x => pout <= x < pout + sz) (whole_reduce k sz pin pout n stride) m (st sz m pout v).
  Proof.
    intros Hn Ho Hi v. unfold v. destruct k as [o ov|o]; cbn [kval whole_reduce ksound] in *.
    - apply (runs_pReduce _ _ sz o ov op ok Hg Hk); try assumption; try (intros x Hx; exact Logic.I || exact Hx).
      intros i Hii. split; [intros x Hx; exact Logic.I|now apply Hi].
    - apply (runs_pNumpyReduce _ _ sz o op ok); try assumption; try (intros x Hx; exact Logic.I || exact Hx).
      intros i Hii. split; [intros x Hx; exact Logic.I|now apply Hi].
  Qed.

  Variables (ip2 stride op1 buf pstart n : Z) (m0 : bytes).
  Hypothesis Hn : 0 <= n.
  Hypothesis Hinit : ok (ld sz m0 op1).
  Hypothesis Hstart : ok (ld sz m0 pstart).
  Hypothesis Helems : forall i, 0 <= i < n -> ok (ld sz m0 (ip2 + i * stride)).
  Definition apart (a b len : Z) : Prop := a + sz <= b \/ b + len <= a.
  (* the chunk buffer has its own bytes *)
  Hypothesis Hbuf : apart op1 buf (chunks_of n * sz) /\ apart pstart buf (chunks_of n * sz) /\
    forall i, 0 <= i < n -> apart (ip2 + i * stride) buf (chunks_of n * sz).

  Let slot (lb x : Z) : Prop := buf + lb * sz <= x < buf + lb * sz + sz.
  Let Rb (lb x : Z) : Prop := (exists i, 0 <= i < n /\ ip2 + i * stride <= x < ip2 + i * stride + sz) \/ pstart <= x < pstart + sz \/ slot lb x.
  Definition chunk_val (lb : Z) : Z := kval k op sz (ld sz m0) (ip2 + WORK_ITEM_CHUNK * lb * stride) (ld sz m0 pstart) (Z.min WORK_ITEM_CHUNK (n - WORK_ITEM_CHUNK * lb)) stride.

  Lemma block_runs lb : 0 <= lb < BL n -> ok (chunk_val lb) /\
    exists m', runs (Rb lb) (slot lb) (on_chunk k sz ip2 buf pstart stride lb (blen n lb)) m0 m' /\ ld sz m' (buf + lb * sz) = chunk_val lb.
  Proof.
    intros Hlb. destruct (blen_min n lb Hlb) as [EL PL]. unfold chunk_val. rewrite <- EL. pose proof Hbuf as HB. rewrite chunks_BL in HB. destruct HB as (B1 & B2 & B3).
    assert (In : forall i, 0 <= i < blen n lb -> 0 <= WORK_ITEM_CHUNK * lb + i < n).
    { intros i Hi. pose proof (proj1 (blen_elems n lb (CH * lb + i) Hlb) ltac:(lia)) as [Q _]. exact Q. }
    assert (Ea : forall i, ip2 + WORK_ITEM_CHUNK * lb * stride + i * stride = ip2 + (WORK_ITEM_CHUNK * lb + i) * stride) by (intros; ring).
    assert (Hc : forall i, 0 <= i < blen n lb -> cover (Rb lb) (ip2 + WORK_ITEM_CHUNK * lb * stride + i * stride) sz /\ ok (ld sz m0 (ip2 + WORK_ITEM_CHUNK * lb * stride + i * stride))).
    { intros i Hi. rewrite Ea. split; [|apply Helems, In, Hi]. intros x Hx. left. exists (WORK_ITEM_CHUNK * lb + i). auto. }
    assert (Cp : cover (Rb lb) pstart sz) by (intros x Hx; right; left; exact Hx).
    assert (Cs : cover (Rb lb) (buf + lb * sz) sz) by (intros x Hx; right; right; exact Hx).
    assert (Cw : cover (slot lb) (buf + lb * sz) sz) by (intros x Hx; exact Hx).
    destruct k as [o ov|o]; cbn [kval on_chunk ksound] in *.
    - destruct (runs_pReduce (Rb lb) (slot lb) sz o ov op ok Hg Hk (ip2 + WORK_ITEM_CHUNK * lb * stride) (buf + lb * sz) pstart (blen n lb) stride m0 ltac:(lia) Cp Cw Hstart Hc) as [O Q].
      split; [exact O|]. eexists. split; [exact Q|]. apply ld_st; [lia|]. apply Hpat, O.
    - set (m1 := st sz m0 (buf + lb * sz) (ld sz m0 pstart)).
      assert (L0 : ld sz m1 (buf + lb * sz) = ld sz m0 pstart) by (apply ld_st; [lia|apply Hpat, Hstart]).
      assert (L1 : forall i, 0 <= i < blen n lb -> ld sz m1 (ip2 + WORK_ITEM_CHUNK * lb * stride + i * stride) = ld sz m0 (ip2 + WORK_ITEM_CHUNK * lb * stride + i * stride)).
      { intros i Hi. apply ld_st_other; [lia|]. rewrite Ea. destruct (B3 _ (In i Hi)); nia. }
      destruct (runs_pNumpyReduce (Rb lb) (slot lb) sz o op ok (ip2 + WORK_ITEM_CHUNK * lb * stride) (buf + lb * sz) (blen n lb) stride m1 Hg Hk ltac:(lia) Cs Cw) as [O Q].
      + now rewrite L0.
      + intros i Hi. destruct (Hc i Hi) as [C1 C2]. rewrite L1 by exact Hi. auto.
      + assert (E : numpy_loop op (ld sz m1) (ip2 + WORK_ITEM_CHUNK * lb * stride) (ld sz m1 (buf + lb * sz)) (blen n lb) stride =
                    numpy_loop op (ld sz m0) (ip2 + WORK_ITEM_CHUNK * lb * stride) (ld sz m0 pstart) (blen n lb) stride).
        { rewrite L0. unfold numpy_loop. apply fold_left_ext_in. intros a i Hi. apply zrange_In in Hi. f_equal. now apply L1. }
        rewrite E in O, Q. split; [exact O|]. eexists. split; [|apply ld_st; [lia|apply Hpat, O]].
        replace ((sz =? 1) || (sz =? 2) || (sz =? 4) || (sz =? 8)) with true by (destruct Hg as [-> | [-> | [-> | ->]]]; reflexivity).
        rewrite runs_assoc. apply runs_pld; [lia|exact Cp|]. apply runs_pst; [lia|exact Cw|]. exact Q.
  Qed.

  Lemma slots_apart lb lb' x : 0 <= lb < BL n -> 0 <= lb' < BL n -> lb <> lb' -> slot lb x -> ~ Rb lb' x /\ ~ slot lb' x.
  Proof.
    intros H1 H2 Hne Hx. unfold slot, Rb in *. pose proof Hbuf as HB. rewrite chunks_BL in HB. destruct HB as (B1 & B2 & B3).
    assert (N : ~ (buf + lb' * sz <= x < buf + lb' * sz + sz)) by (destruct (Z.lt_ge_cases lb lb'); nia).
    split; [|exact N]. intros [(i & Hi & Hix)|[Hp|Hq]]; [| |exact (N Hq)].
    - destruct (B3 i Hi); nia.
    - destruct B2; nia.
  Qed.

  Lemma red_fin : exists fin, forall lb, 0 <= lb < BL n ->
    runs (Rb lb) (slot lb) (on_chunk k sz ip2 buf pstart stride lb (blen n lb)) m0 (fin lb) /\ ld sz (fin lb) (buf + lb * sz) = chunk_val lb.
  Proof.
    exists (fun lb => match solo (on_chunk k sz ip2 buf pstart stride lb (blen n lb)) m0 with Some m => m | None => m0 end). intros lb Hlb.
    destruct (block_runs lb Hlb) as (_ & m' & H1 & H2). destruct (runs_solo _ _ _ _ _ H1) as (m2 & E & Em). rewrite E. split.
    - clear - H1 Em. revert H1. generalize (on_chunk k sz ip2 buf pstart stride lb (blen n lb)) m0. intros p. induction p as [a|x kk IH|x v kk IH| |]; intros m H; cbn [runs] in *; try contradiction.
      + intros x. rewrite Em. apply H.
      + destruct H. split; auto.
      + destruct H. split; auto.
    - rewrite <- H2. apply ldn_ext. intros x _. apply Em.
  Qed.

  (** on threads the last pass of NumPy's loop uses the steps of the call *)
  Hypothesis Hstride : (exists o ov, k = RFast o ov) \/ stride = sz.

  (** the chunk buffer filled, memory otherwise as before: the last pass *)
  Lemma last_pass m1 : 0 < n -> (forall lb, 0 <= lb < BL n -> ld sz m1 (buf + lb * sz) = chunk_val lb) ->
    (forall x, (forall lb, 0 <= lb < BL n -> ~ slot lb x) -> m1 x = m0 x) ->
    exists m2, solo (finish_reduce k sz buf op1 n stride) m1 = Some m2 /\
      ld sz m2 op1 = threaded_value k op sz (ld sz m0) ip2 stride (ld sz m0 pstart) (ld sz m0 op1) n /\
      (forall x, ~ (op1 <= x < op1 + sz) -> m2 x = m1 x).
  Proof.
    intros Pn Hb Ho. pose proof Hbuf as HB. rewrite chunks_BL in HB. destruct HB as (B1 & B2 & B3).
    assert (PB : 0 < BL n) by (rewrite <- chunks_BL; unfold chunks_of; change WORK_ITEM_CHUNK with 16384; lia).
    assert (E1 : ld sz m1 op1 = ld sz m0 op1).
    { apply ld_ext; [lia|]. intros x Hx. apply Ho. intros lb Hlb Hsl. unfold slot in Hsl. destruct B1; nia. }
    assert (EF : finish_reduce k sz buf op1 n stride = whole_reduce k sz buf op1 (chunks_of n) sz).
    { destruct Hstride as [(o & ov & E)|E]; [now rewrite E|]. destruct k; cbn [finish_reduce whole_reduce]; [reflexivity|now rewrite E]. }
    destruct (whole_runs buf op1 (chunks_of n) sz m1) as [O Q].
    - rewrite chunks_BL. lia.
    - rewrite E1. exact Hinit.
    - intros i Hi. rewrite chunks_BL in Hi. rewrite Hb by exact Hi. now apply block_runs.
    - destruct (runs_solo _ _ _ _ _ Q) as (m2 & S2 & Em). rewrite EF. exists m2. split; [exact S2|]. split.
      + transitivity (ld sz (st sz m1 op1 (kval k op sz (ld sz m1) buf (ld sz m1 op1) (chunks_of n) sz)) op1); [apply ldn_ext; intros x _; apply Em|].
        rewrite ld_st by (try lia; apply Hpat, O). unfold threaded_value. rewrite E1. apply kval_local; [exact Hg|rewrite chunks_BL; lia|].
        intros i Hi. rewrite chunks_BL in Hi. rewrite Hb by exact Hi. rewrite Z.add_0_l, Z.div_mul by lia. reflexivity.
      + intros x Hx. rewrite Em. apply st_out; [lia|exact Hx].
  Qed.

  Definition call_value (h : how) : Z :=
    match h with
    | Alone => kval k op sz (ld sz m0) ip2 (ld sz m0 op1) n stride
    | Threaded _ _ _ => threaded_value k op sz (ld sz m0) ip2 stride (ld sz m0 pstart) (ld sz m0 op1) n
    end.
  Definition outside (h : how) (x : Z) : Prop :=
    ~ (op1 <= x < op1 + sz) /\ match h with Alone => True | _ => ~ (buf <= x < buf + chunks_of n * sz) end.
  Lemma red_threaded T zz sched :
    ~ red_faults k sz ip2 stride op1 buf pstart n (Threaded T zz sched) m0 /\
    (forall m', red_ends k sz ip2 stride op1 buf pstart n (Threaded T zz sched) m0 m' ->
      ld sz m' op1 = call_value (Threaded T zz sched) /\ forall x, outside (Threaded T zz sched) x -> m' x = m0 x).
  Proof.
    cbn [red_faults red_ends]. destruct red_fin as (fin & Hf).
    assert (Rule : 0 <= T -> _) by (intros HT; exact (tso_rule (on_chunk k sz ip2 buf pstart stride) n T zz m0 HT Rb slot fin (fun lb H => proj1 (Hf lb H)) slots_apart sched)).
    cbv zeta in Rule. set (s := tu (trun (on_chunk k sz ip2 buf pstart stride) (tstart n T zz m0) sched)) in *.
    assert (Last : WORK_ITEM_BIG <= n -> 0 <= T -> pcs (eng s) 0 = Returned -> exists m2, solo (finish_reduce k sz buf op1 n stride) (umem s) = Some m2 /\
      ld sz m2 op1 = threaded_value k op sz (ld sz m0) ip2 stride (ld sz m0 pstart) (ld sz m0 op1) n /\
      (forall x, ~ (op1 <= x < op1 + sz) -> m2 x = umem s x)).
    { intros Hbig HT Hr. destruct (Rule HT) as [_ Rl]. destruct (Rl Hr) as [R1 R2]. apply last_pass; [change WORK_ITEM_BIG with 65536 in Hbig; lia| |exact R2].
      intros lb Hlb. rewrite <- (proj2 (Hf lb Hlb)). apply ldn_ext. intros x Hx. apply (R1 lb Hlb). unfold slot. lia. }
    split.
    - intros (Hbig & HT & [Hq|(Hr & Hq)]); [destruct (Rule HT); congruence|]. destruct (Last Hbig HT Hr) as (m2 & E & _). congruence.
    - intros m' (Hbig & HT & Hr & Hq). destruct (Last Hbig HT Hr) as (m2 & E & V & Out). rewrite E in Hq. injection Hq as <-. split; [exact V|].
      intros x [N1 N2]. rewrite Out by exact N1. destruct (Rule HT) as [_ Rl]. destruct (Rl Hr) as [_ R2]. apply R2. intros lb Hlb Hsl. apply N2.
      rewrite chunks_BL. unfold slot in Hsl. nia.
  Qed.
  Lemma red_can_return T zz sched : WORK_ITEM_BIG <= n -> 0 <= T ->
    exists more m', red_ends k sz ip2 stride op1 buf pstart n (Threaded T zz (sched ++ more)) m0 m'.
  Proof.
    intros Hbig HT. destruct red_fin as (fin & Hf).
    destruct (tso_can_return (on_chunk k sz ip2 buf pstart stride) n T zz m0 Hn HT Rb slot fin (fun lb H => proj1 (Hf lb H)) slots_apart sched) as (more & Hm).
    pose proof (tso_rule (on_chunk k sz ip2 buf pstart stride) n T zz m0 HT Rb slot fin (fun lb H => proj1 (Hf lb H)) slots_apart (sched ++ more)) as [_ Rl].
    destruct (Rl Hm) as [R1 R2]. destruct (last_pass (umem (tu (trun (on_chunk k sz ip2 buf pstart stride) (tstart n T zz m0) (sched ++ more))))) as (m2 & E & _).
    - change WORK_ITEM_BIG with 65536 in Hbig. lia.
    - intros lb Hlb. rewrite <- (proj2 (Hf lb Hlb)). apply ldn_ext. intros x Hx. apply (R1 lb Hlb). unfold slot. lia.
    - exact R2.
    - exists more, m2. cbn [red_ends]. auto.
  Qed.
End Call.

Lemma red_alone k op ok sz ip2 stride op1 buf pstart n m0 : good_sz sz -> ksound k op ok -> (forall x, ok x -> pat sz x) -> 0 <= n ->
  ok (ld sz m0 op1) -> (forall i, 0 <= i < n -> ok (ld sz m0 (ip2 + i * stride))) ->
  ~ red_faults k sz ip2 stride op1 buf pstart n Alone m0 /\
  (forall m', red_ends k sz ip2 stride op1 buf pstart n Alone m0 m' ->
    ld sz m' op1 = kval k op sz (ld sz m0) ip2 (ld sz m0 op1) n stride /\ forall x, ~ (op1 <= x < op1 + sz) -> m' x = m0 x).
Proof.
  intros Hg Hk Hpat Hn Hi He. pose proof (good_pos sz Hg). destruct (whole_runs k op ok sz Hg Hk ip2 op1 n stride m0 Hn Hi He) as [O Q].
  destruct (runs_solo _ _ _ _ _ Q) as (m2 & E & Em). cbn [red_faults red_ends]. rewrite E. split; [discriminate|]. intros m' H1. injection H1 as <-. split.
  - transitivity (ld sz (st sz m0 op1 (kval k op sz (ld sz m0) ip2 (ld sz m0 op1) n stride)) op1); [apply ldn_ext; intros x _; apply Em|].
    apply ld_st; [lia|apply Hpat, O].
  - intros x Hx. rewrite Em. apply st_out; [lia|exact Hx].
Qed.
