(** RecArray_Props.v - C26, C27: record array to columns. *)
From Verif Require Import Base Threads_Model Threads_Proofs Threads_Counter_Proofs Jobs_Model Jobs_Proofs Jobs_Call_Proofs RecArray_Model.

(** ======== specification ======== *)
(** the byte b of row r of field f, in the record array and in its column *)
Definition rec_addr (pStart itemSize : Z) (f : field) (r b : Z) : Z := pStart + r * itemSize + fOffset f + b.
Definition col_addr (f : field) (r b : Z) : Z := fpData f + r * fItemsize f + b.

(** columns do not overlap each other *)
Definition disjoint_columns (fields : list field) (totalRows : Z) : Prop :=
  forall i j f g, i <> j -> nth_error fields i = Some f -> nth_error fields j = Some g ->
    forall a, fpData f <= a < fpData f + totalRows * fItemsize f -> fpData g <= a < fpData g + totalRows * fItemsize g -> False.

Definition columns_result {V} (rec : Z -> V) (pStart itemSize : Z) (fields : list field) (totalRows : Z) (m m' : Z -> V) : Prop :=
  (forall f r b, In f fields -> 0 <= r < totalRows -> 0 <= b < fItemsize f ->
     m' (col_addr f r b) = rec (rec_addr pStart itemSize f r b)) /\
  (forall a, (forall f r b, In f fields -> 0 <= r < totalRows -> 0 <= b < fItemsize f -> a <> col_addr f r b) -> m' a = m a).

(** ======== lemmas ======== *)
Lemma int32_small x : 0 <= x < 2 ^ 31 -> int32 x = x.
Proof.
  intros H. unfold int32. cbv zeta. change (2 ^ 32) with 4294967296. change (2 ^ 31) with 2147483648 in *.
  rewrite Z.mod_small by lia. destruct (Z.ltb_spec x 2147483648); lia.
Qed.

Section P.
  Context {V : Type} (rec : Z -> V) (pStart itemSize : Z).
  Hypothesis His : 0 < itemSize.
  Notation elem_bytes := (elem_bytes rec). Notation conv_field := (conv_field rec pStart itemSize).
  Notation conv_loop := (conv_loop rec pStart itemSize). Notation convert := (convert rec pStart itemSize).
  Notation CHUNKROWS := (CHUNKROWS itemSize).

  (** the store of byte b of row r of field f *)
  Definition the_store (f : field) (r b : Z) : Z * V := (col_addr f r b, rec (rec_addr pStart itemSize f r b)).

  Lemma elem_bytes_In sz dst srcp av : In av (elem_bytes sz dst srcp) <-> exists b, 0 <= b < sz /\ av = (dst + b, rec (srcp + b)).
  Proof.
    unfold RecArray_Model.elem_bytes. rewrite in_map_iff. split.
    - intros (b & <- & Hb). apply zrange_In in Hb. eauto.
    - intros (b & Hb & ->). exists b. rewrite zrange_In. auto.
  Qed.

  Lemma rows_In f r0 r1 av : In av (rows_bytes rec pStart itemSize f r0 r1) <->
    exists r b, r0 <= r < r1 /\ 0 <= b < fItemsize f /\ av = the_store f r b.
  Proof.
    unfold rows_bytes. rewrite in_flat_map. split.
    - intros (r & Hr & Hin). apply zrange_In in Hr. apply elem_bytes_In in Hin. destruct Hin as (b & Hb & ->).
      exists r, b. split; [exact Hr|]. split; [exact Hb|]. unfold the_store, col_addr, rec_addr. f_equal. f_equal. lia.
    - intros (r & b & Hr & Hb & ->). exists r. rewrite zrange_In. split; [exact Hr|]. apply elem_bytes_In. exists b. split; [exact Hb|].
      unfold the_store, col_addr, rec_addr. f_equal. f_equal. lia.
  Qed.

  Lemma CHUNKROWS_pos : 1 <= CHUNKROWS.
  Proof. unfold RecArray_Model.CHUNKROWS. cbv zeta. destruct (Z.ltb_spec (32768 / (itemSize * 2)) 1); lia. Qed.

  (** a block with more than one row: the items are small *)
  Lemma CHUNKROWS_small : 1 < CHUNKROWS -> itemSize <= 16384.
  Proof.
    unfold RecArray_Model.CHUNKROWS. cbv zeta. destruct (Z.ltb_spec (32768 / (itemSize * 2)) 1) as [H|H]; [lia|].
    intros _. pose proof (Z.mul_div_le 32768 (itemSize * 2) ltac:(lia)). nia.
  Qed.

  Lemma gather_In f lanes sz r av : 0 < sz -> sz = fItemsize f -> 0 <= lanes <= 8 -> itemSize <= 16384 ->
    In av (gather_bytes rec pStart itemSize f lanes sz r) <->
    exists r' b, r <= r' < r + lanes /\ 0 <= b < fItemsize f /\ av = the_store f r' b.
  Proof.
    intros Hsz E Hl Hsm. unfold gather_bytes. rewrite in_flat_map.
    assert (Hj : forall j, 0 <= j < lanes -> int32 (int32 itemSize * j) = itemSize * j).
    { intros j Hj. rewrite (int32_small itemSize) by (change (2 ^ 31) with 2147483648; lia).
      apply int32_small. change (2 ^ 31) with 2147483648. nia. }
    split.
    - intros (j & Hr & Hin). apply zrange_In in Hr. apply elem_bytes_In in Hin. destruct Hin as (b & Hb & ->).
      exists (r + j), b. split; [lia|]. split; [lia|]. rewrite Hj by lia.
      unfold the_store, col_addr, rec_addr. rewrite <- E. f_equal; [lia|]. f_equal. lia.
    - intros (r' & b & Hr & Hb & ->). exists (r' - r). rewrite zrange_In. split; [lia|]. apply elem_bytes_In. exists b. split; [lia|].
      rewrite Hj by lia. unfold the_store, col_addr, rec_addr. rewrite <- E. f_equal; [lia|]. f_equal. lia.
  Qed.

  Lemma wide_In f lanes sz s e av : 0 < sz -> sz = fItemsize f -> 0 < lanes <= 8 -> s <= e -> (lanes < e - s -> itemSize <= 16384) ->
    let k := wide_iters s (e - lanes) lanes in
    (s <= s + lanes * k <= e) /\
    (In av (flat_map (fun i => gather_bytes rec pStart itemSize f lanes sz (s + lanes * i)) (zrange 0 k) ++
       rows_bytes rec pStart itemSize f (s + lanes * k) e) <->
     exists r b, s <= r < e /\ 0 <= b < fItemsize f /\ av = the_store f r b).
  Proof.
    intros Hsz E Hl Hse Hsm. cbv zeta. unfold wide_iters.
    destruct (Z.ltb_spec s (e - lanes)) as [Hw|Hw].
    - specialize (Hsm ltac:(lia)). set (k := (e - lanes - s + lanes - 1) / lanes).
      assert (Hk : 0 <= k /\ s + lanes * k <= e).
      { pose proof (Z.mul_div_le (e - lanes - s + lanes - 1) lanes ltac:(lia)).
        pose proof (Z.div_pos (e - lanes - s + lanes - 1) lanes ltac:(lia) ltac:(lia)). unfold k. lia. }
      split; [nia|]. rewrite in_app_iff, rows_In, in_flat_map. split.
      + intros [(i & Hi & Hin)|(r & b & Hr & Hb & ->)].
        * apply zrange_In in Hi. apply gather_In in Hin; [|lia|exact E|lia|exact Hsm]. destruct Hin as (r & b & Hr & Hb & ->).
          exists r, b. split; [nia|]. auto.
        * exists r, b. split; [nia|]. auto.
      + intros (r & b & Hr & Hb & ->). destruct (Z.ltb_spec r (s + lanes * k)) as [Hlt|Hge].
        * left. exists ((r - s) / lanes). pose proof (Z.div_mod (r - s) lanes ltac:(lia)). pose proof (Z.mod_pos_bound (r - s) lanes ltac:(lia)).
          rewrite zrange_In. split; [split; [apply Z.div_pos; lia|nia]|].
          apply gather_In; [lia|exact E|lia|exact Hsm|]. exists r, b. split; [lia|]. auto.
        * right. exists r, b. split; [lia|]. auto.
    - replace (s + lanes * 0) with s by lia. split; [lia|]. rewrite zrange_nil by lia. cbn [flat_map app]. apply rows_In.
  Qed.

  Lemma conv_field_spec f s e : s < e -> e - s <= CHUNKROWS ->
    fst (conv_field f s e) = e /\
    forall av, In av (snd (conv_field f s e)) <-> exists r b, s <= r < e /\ 0 <= b < fItemsize f /\ av = the_store f r b.
  Proof.
    intros Hse Hc. unfold RecArray_Model.conv_field. cbv zeta.
    destruct (Z.eqb_spec (fItemsize f) 4) as [E4|E4]; [|destruct (Z.eqb_spec (fItemsize f) 8) as [E8|E8]].
    - assert (Hs : 8 < e - s -> itemSize <= 16384) by (intros; apply CHUNKROWS_small; lia).
      split.
      + destruct (wide_In f 8 4 s e (the_store f 0 0) ltac:(lia) ltac:(lia) ltac:(lia) ltac:(lia) Hs) as [H _]. cbn [fst]. lia.
      + intros av. apply (wide_In f 8 4 s e av); lia.
    - assert (Hs : 4 < e - s -> itemSize <= 16384) by (intros; apply CHUNKROWS_small; lia).
      split.
      + destruct (wide_In f 4 8 s e (the_store f 0 0) ltac:(lia) ltac:(lia) ltac:(lia) ltac:(lia) Hs) as [H _]. cbn [fst]. lia.
      + intros av. apply (wide_In f 4 8 s e av); lia.
    - split; [cbn [fst]; lia|]. intros av. apply rows_In.
  Qed.

  Lemma conv_fields_spec fields s e : s < e -> e - s <= CHUNKROWS ->
    let r := fold_left (fun acc f => let c := conv_field f s e in (fst c, snd acc ++ snd c)) fields (s, []) in
    fst r = (match fields with [] => s | _ => e end) /\
    forall av, In av (snd r) <-> exists f r b, In f fields /\ s <= r < e /\ 0 <= b < fItemsize f /\ av = the_store f r b.
  Proof.
    intros Hse Hc. cbv zeta.
    assert (Hg : forall x l0, let r := fold_left (fun acc f => let c := conv_field f s e in (fst c, snd acc ++ snd c)) fields (x, l0) in
      fst r = (match fields with [] => x | _ => e end) /\
      forall av, In av (snd r) <-> In av l0 \/ exists f r b, In f fields /\ s <= r < e /\ 0 <= b < fItemsize f /\ av = the_store f r b).
    { induction fields as [|f fl IH]; intros x l0; cbv zeta; cbn [fold_left fst snd].
      - split; [reflexivity|]. intros av. split; [auto|]. intros [H|(f & r & b & [] & _)]. exact H.
      - destruct (conv_field_spec f s e Hse Hc) as [F1 F2]. rewrite F1.
        destruct (IH e (l0 ++ snd (conv_field f s e))) as [I1 I2]. cbv zeta in *. split.
        + rewrite I1. destruct fl; reflexivity.
        + intros av. rewrite I2, in_app_iff, F2. split.
          * intros [[H|(r & b & H)]|(g & r & b & Hg & H)]; [auto| |].
            -- right. exists f, r, b. split; [left; reflexivity|exact H].
            -- right. exists g, r, b. split; [right; exact Hg|exact H].
          * intros [H|(g & r & b & [->|Hg] & H)]; [auto| |].
            -- left; right. eauto.
            -- right. exists g, r, b. auto. }
    destruct (Hg s []) as [A B]. cbv zeta in *. split; [exact A|]. intros av. rewrite B. split.
    - intros [[]|H]. exact H.
    - auto.
  Qed.

  Lemma conv_loop_spec fuel fields s e : fields <> [] -> (Z.to_nat (e - s) < fuel)%nat ->
    exists ws, conv_loop fuel fields s e = Some ws /\
      forall av, In av ws <-> exists f r b, In f fields /\ s <= r < e /\ 0 <= b < fItemsize f /\ av = the_store f r b.
  Proof.
    intros Hne. revert s. induction fuel as [|fuel IH]; intros s Hf; [lia|]. cbn [RecArray_Model.conv_loop].
    destruct (Z.ltb_spec s e) as [Hse|Hse].
    - pose proof CHUNKROWS_pos as HC. set (e' := if s + CHUNKROWS >? e then e else s + CHUNKROWS).
      assert (He' : s < e' <= e /\ e' - s <= CHUNKROWS) by (unfold e'; destruct (Z.gtb_spec (s + CHUNKROWS) e); lia).
      clearbody e'. destruct (conv_fields_spec fields s e' ltac:(lia) ltac:(lia)) as [A B]. cbv zeta in *.
      set (r := fold_left _ fields (s, [])) in *.
      assert (A' : fst r = e') by (rewrite A; destruct fields; [congruence|reflexivity]).
      rewrite A'. destruct (IH e' ltac:(lia)) as (ws & Ew & Hw). rewrite Ew. eexists. split; [reflexivity|].
      intros av. rewrite in_app_iff, B, Hw. split.
      + intros [(f & x & b & H1 & H2 & H3)|(f & x & b & H1 & H2 & H3)]; exists f, x, b; (split; [exact H1|]; split; [lia|exact H3]).
      + intros (f & x & b & H1 & H2 & H3). destruct (Z.ltb_spec x e'); [left|right]; exists f, x, b; (split; [exact H1|]; split; [lia|exact H3]).
    - exists []. split; [reflexivity|]. intros av. split; [intros []|]. intros (f & r & b & _ & H & _). lia.
  Qed.

  Lemma convert_In fields s e av : fields <> [] ->
    In av (convert fields s e) <-> exists f r b, In f fields /\ s <= r < e /\ 0 <= b < fItemsize f /\ av = the_store f r b.
  Proof.
    intros Hne. unfold RecArray_Model.convert. destruct (conv_loop_spec (S (Z.to_nat (e - s))) fields s e Hne ltac:(lia)) as (ws & -> & H).
    apply H.
  Qed.

  (** the value every column byte must get, as a function of the address *)
  Definition owner (fields : list field) (totalRows a : Z) : option field :=
    find (fun f => (fpData f <=? a) && (a <? fpData f + totalRows * fItemsize f)) fields.
  Definition target (fields : list field) (totalRows a : Z) : V :=
    match owner fields totalRows a with
    | Some f => rec (rec_addr pStart itemSize f ((a - fpData f) / fItemsize f) ((a - fpData f) mod fItemsize f))
    | None => rec a end.

  Lemma target_store fields totalRows f r b : disjoint_columns fields totalRows -> In f fields ->
    0 <= r < totalRows -> 0 <= b < fItemsize f ->
    (forall g, In g fields -> fpData g <= col_addr f r b < fpData g + totalRows * fItemsize g -> g = f) ->
    target fields totalRows (col_addr f r b) = rec (rec_addr pStart itemSize f r b).
  Proof.
    intros Hd Hf Hr Hb Hu. unfold target, owner.
    destruct (find _ fields) as [g|] eqn:E.
    - apply find_some in E. destruct E as [Hg Hin]. apply andb_prop in Hin. destruct Hin as [H1 H2].
      assert (g = f) by (apply Hu; [exact Hg|lia]). subst g. unfold col_addr.
      replace (fpData f + r * fItemsize f + b - fpData f) with (b + r * fItemsize f) by lia.
      rewrite Z.div_add, Z.mod_add by lia. rewrite Z.div_small, Z.mod_small by lia. reflexivity.
    - exfalso. pose proof (find_none _ _ E f Hf) as H. cbv beta in H. unfold col_addr in H.
      assert (r * fItemsize f + b < totalRows * fItemsize f) by nia. assert (0 <= r * fItemsize f) by nia. lia.
  Qed.
End P.

(** ======== C26 ======== *)
(** Every row, every field, every byte: when the conversion returns - threaded under any schedule or not - column k holds
    field k of every row in order, and nothing else was written. *)
Theorem C26_columns : forall V (rec : Z -> V) pStart itemSize fields totalRows threader h m m',
  0 < itemSize -> fields <> [] -> 0 <= totalRows <= 2 ^ 44 -> disjoint_columns fields totalRows ->
  rec_to_colmajor rec pStart itemSize fields totalRows threader h m m' ->
  columns_result rec pStart itemSize fields totalRows m m'.
Proof.
  intros V rec pStart itemSize fields totalRows threader h m m' His Hne Htr Hd Hc.
  set (f0 := target rec pStart itemSize fields totalRows).
  assert (Hst : forall f r b, In f fields -> 0 <= r < totalRows -> 0 <= b < fItemsize f ->
    f0 (col_addr f r b) = rec (rec_addr pStart itemSize f r b)).
  { intros f r b Hf Hr Hb. apply target_store; try assumption. intros g Hg Hin.
    apply In_nth_error in Hf, Hg. destruct Hf as [i Hi], Hg as [j Hj].
    destruct (Nat.eq_dec i j) as [->|Hij]; [congruence|].
    exfalso. apply (Hd i j f g Hij Hi Hj (col_addr f r b)); [|exact Hin].
    unfold col_addr. assert (r * fItemsize f + b < totalRows * fItemsize f) by nia. assert (0 <= r * fItemsize f) by nia. lia. }
  unfold rec_to_colmajor in Hc. destruct (threader && (totalRows >? 16384)) eqn:E.
  - set (items := int32 ((totalRows + (16384 - 1)) / 16384)) in *.
    assert (Hit : items = (totalRows + (16384 - 1)) / 16384).
    { apply int32_small. change (2 ^ 31) with 2147483648. change (2 ^ 44) with 17592186044416 in Htr. lia. }
    assert (Hend : forall w, 0 <= w < items -> w * 16384 < (if w * 16384 + 16384 >? totalRows then totalRows else w * 16384 + 16384) <= totalRows).
    { intros w Hw. destruct (Z.gtb_spec (w * 16384 + 16384) totalRows); lia. }
    destruct (index_wcall items h (fun w => convert rec pStart itemSize fields (w * 16384) (if w * 16384 + 16384 >? totalRows then totalRows else w * 16384 + 16384)) f0 m m') as [A B].
    + rewrite Hit. lia.
    + intros w a v Hw Hin. apply convert_In in Hin; [|assumption..]. destruct Hin as (f & r & b & Hf & Hr & Hb & E1).
      injection E1 as -> ->. specialize (Hend w Hw). symmetry. apply Hst; [exact Hf|lia|exact Hb].
    + exact Hc.
    + split.
      * intros f r b Hf Hr Hb. set (w := r / 16384). assert (Hw : 0 <= w < items) by (unfold w; rewrite Hit; lia).
        apply (A w); [exact Hw|]. apply convert_In; [assumption..|]. exists f, r, b. split; [exact Hf|]. split; [|split; [exact Hb|reflexivity]].
        destruct (Z.gtb_spec (w * 16384 + 16384) totalRows); unfold w in *; lia.
      * intros a Ha. apply B. intros w v Hw Hin. apply convert_In in Hin; [|assumption..].
        destruct Hin as (f & r & b & Hf & Hr & Hb & E1). injection E1 as -> _. specialize (Hend w Hw).
        apply (Ha f r b); [exact Hf|lia|exact Hb|reflexivity].
  - subst m'. destruct (run_wprog (convert rec pStart itemSize fields 0 totalRows) m f0) as [A B].
    + intros a v Hin. apply convert_In in Hin; [|assumption..]. destruct Hin as (f & r & b & Hf & Hr & Hb & E1).
      injection E1 as -> ->. symmetry. apply Hst; assumption.
    + split.
      * intros f r b Hf Hr Hb. apply A. apply convert_In; [assumption..|]. exists f, r, b. auto.
      * intros a Ha. apply B. intros v Hin. apply convert_In in Hin; [|assumption..].
        destruct Hin as (f & r & b & Hf & Hr & Hb & E1). injection E1 as -> _. apply (Ha f r b); auto.
Qed.
Print Assumptions C26_columns.

(** a threaded conversion of 100000 rows of (float32, int16, int64) returns, and its columns are right *)
Example C26_nonvacuous :
  let fields := [mkField 10000000 0 4; mkField 20000000 4 2; mkField 30000000 6 8] in
  exists sched m', rec_to_colmajor (fun a => a) 0 14 fields 100000 true (Threaded 3 true sched) (fun _ => -1) m' /\
    m' (30000000 + 99999 * 8 + 7) = 99999 * 14 + 6 + 7.
Proof.
  intros fields.
  destruct (index_call_can_return (fun w => map wr (convert (fun a => a) 0 14 fields (w * 16384)
     (if w * 16384 + 16384 >? 100000 then 100000 else w * 16384 + 16384))) tt 7 3 true (fun _ => -1)) as (s & m' & H); [lia|lia|].
  exists s, m'. assert (Hr : rec_to_colmajor (fun a => a) 0 14 fields 100000 true (Threaded 3 true s) (fun _ => -1) m') by exact H.
  split; [exact Hr|].
  apply C26_columns in Hr.
  - destruct Hr as [A _]. specialize (A (mkField 30000000 6 8) 99999 7 ltac:(right; right; left; reflexivity) ltac:(lia) ltac:(cbn; lia)).
    exact A.
  - lia.
  - discriminate.
  - change (2 ^ 44) with 17592186044416. lia.
  - intros i j f g Hij Hi Hj a Ha Hb. destruct i as [|[|[|[|i]]]]; destruct j as [|[|[|[|j]]]]; try congruence; cbn in Hi, Hj; try discriminate;
      injection Hi as <-; injection Hj as <-; cbn in Ha, Hb; lia.
Qed.

(** At the Python level the function never gets that far: recarray.py:38 tests the undefined name "successs", so
    pn.recarray_to_colmajor raises NameError for every record array, and AttributeError for a void array without fields. *)
Theorem C26_python_wrapper_refuted : py_wrapper true true = PyRaisesNameError /\ py_wrapper true false = PyRaisesAttributeError.
Proof. split; reflexivity. Qed.
Print Assumptions C26_python_wrapper_refuted.

(** ======== C27 ======== *)
(** with at least one field the conversion loop ends, within one round per row *)
Theorem C27_terminates_partial : forall V (rec : Z -> V) pStart itemSize fields startRow totalRows,
  0 < itemSize -> fields <> [] ->
  exists ws, conv_loop rec pStart itemSize (S (Z.to_nat (totalRows - startRow))) fields startRow totalRows = Some ws.
Proof.
  intros V rec pStart itemSize fields s e His Hne.
  destruct (conv_loop_spec rec pStart itemSize His (S (Z.to_nat (e - s))) fields s e Hne ltac:(lia)) as (ws & H & _). eauto.
Qed.
Print Assumptions C27_terminates_partial.
Example C27_nonvacuous : [mkField 10 0 4] <> []. Proof. discriminate. Qed.

(** The full claim fails: with no field the loop never advances - recarray_to_colmajor on a non-empty array of records of a positive
    size, given no columns (an empty object array and no offsets), never returns. *)
Theorem C27_no_fields_hangs_refuted : forall V (rec : Z -> V) pStart itemSize totalRows fuel,
  0 < itemSize -> 0 < totalRows -> conv_loop rec pStart itemSize fuel [] 0 totalRows = None.
Proof.
  intros V rec pStart itemSize totalRows fuel _ Hr. induction fuel as [|fuel IH]; [reflexivity|].
  cbn [conv_loop]. destruct (Z.ltb_spec 0 totalRows); [|lia]. cbn [fold_left fst snd]. rewrite IH. reflexivity.
Qed.
Print Assumptions C27_no_fields_hangs_refuted.
