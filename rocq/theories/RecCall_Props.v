(** RecCall_Props.v - C79: _pnumpy.recarray_to_colmajor as it is called. *)
From Verif Require Import Base Threads_Model Threads_Proofs Threads_Counter_Proofs Jobs_Model Jobs_Proofs Jobs_Call_Proofs RecArray_Model RecArray_Props Kernel_Model RecCall_Model.

(** ======== specification ======== *)
(** how many items an array has: the product of its dimensions *)
Definition items (a : npa) : Z := fold_right Z.mul 1 (n_dims a).
(** address of element r of a one-dimensional array *)
Definition elem (a : npa) (r : Z) : Z := n_data a + r * hd 0 (n_str a).
(** n items of [item] bytes, one after the other *)
Definition vector_of (a : npa) (n : Z) : Prop := n_dims a = [n] /\ n_str a = [n_item a].

(** the three arguments but for the shapes of the records and of the columns: [offs] is a contiguous int64 array that holds [off], [objs] a contiguous object
    array that holds [cols], in the same number; the columns are apart, [n] items long *)
Record arguments (m : bytes) (x y z : obj) (rec : npa) (off : list Z) (cols : list npa) (n : Z) : Prop := {
  A_rec : as_arr x = Some rec; A_void : n_dt rec = 20; A_stride : hd 0 (n_str rec) = n_item rec /\ n_str rec <> []; A_item : 0 < n_item rec;
  A_rows : items rec = n /\ 0 <= n <= 2 ^ 44;
  A_some : cols <> [] /\ length off = length cols;
  A_offs : exists o, as_arr y = Some o /\ items o = Z.of_nat (length off) /\ forall k v, nth_error off k = Some v -> int64_at m (n_data o + 8 * Z.of_nat k) = v;
  A_objs : exists c slots, z = Arr c slots /\ n_dt c = 17 /\ items c = Z.of_nat (length cols) /\ forall k a, nth_error cols k = Some a -> as_arr (slots (Z.of_nat k)) = Some a;
  A_apart : forall i j a b, i <> j -> nth_error cols i = Some a -> nth_error cols j = Some b ->
    forall p, n_data a <= p < n_data a + n * n_item a -> n_data b <= p < n_data b + n * n_item b -> False;
  A_source : forall k c o i a r b, nth_error cols k = Some c -> nth_error off k = Some o -> nth_error cols i = Some a -> 0 <= r < n -> 0 <= b < n_item c ->
    n_data a <= n_data rec + r * n_item rec + o + b < n_data a + n * n_item a -> False
}.

(** a documented call: one-dimensional contiguous records, columns that are one-dimensional contiguous arrays of as many items *)
Definition documented (m : bytes) (x y z : obj) (rec : npa) (off : list Z) (cols : list npa) (n : Z) : Prop :=
  arguments m x y z rec off cols n /\ vector_of rec n /\ forall k c, nth_error cols k = Some c -> vector_of c n.

(** every byte of every item of column k is the byte of field k of the same row; no other byte changes *)
Definition columns_filled (m m' : bytes) (rec : npa) (off : list Z) (cols : list npa) (n : Z) : Prop :=
  (forall k c o r b, nth_error cols k = Some c -> nth_error off k = Some o -> 0 <= r < n -> 0 <= b < n_item c -> m' (elem c r + b) = m (elem rec r + o + b)) /\
  (forall p, (forall k c r b, nth_error cols k = Some c -> 0 <= r < n -> 0 <= b < n_item c -> p <> elem c r + b) -> m' p = m p).

(** ======== lemmas ======== *)
Lemma items_alen a : alen a = items a.
Proof.
  assert (H : forall l v, fold_left Z.mul l v = v * fold_right Z.mul 1 l); [|unfold alen; rewrite H; apply Z.mul_1_l].
  induction l as [|d l IH]; intros v; cbn [fold_left fold_right]; [lia|]. rewrite IH. lia.
Qed.
Lemma column_list_all slots : forall cols s, (forall k a, nth_error cols k = Some a -> as_arr (slots (s + Z.of_nat k)) = Some a) ->
  column_list slots (zrange s (s + Z.of_nat (length cols))) = Some cols.
Proof.
  induction cols as [|c cols IH]; intros s H; cbn [length].
  - replace (s + Z.of_nat 0) with s by lia. unfold zrange. rewrite Z.sub_diag. reflexivity.
  - unfold zrange. replace (Z.to_nat (s + Z.of_nat (S (length cols)) - s)) with (S (length cols)) by lia. cbn [zseq column_list].
    pose proof (H 0%nat c eq_refl) as H0. rewrite Z.add_0_r in H0. rewrite H0.
    specialize (IH (s + 1)). unfold zrange in IH. replace (Z.to_nat (s + 1 + Z.of_nat (length cols) - (s + 1))) with (length cols) in IH by lia. rewrite IH; [reflexivity|].
    intros k a Hk. specialize (H (S k) a Hk). replace (s + 1 + Z.of_nat k) with (s + Z.of_nat (S k)) by lia. exact H.
Qed.
Lemma fields_nth m o : forall cols s k f, nth_error (fields_from m o s cols) k = Some f <-> exists c, nth_error cols k = Some c /\ f = field_of m o (s + Z.of_nat k) c.
Proof.
  induction cols as [|c cols IH]; intros s k f; [destruct k; cbn; split; try discriminate; intros (a & H & _); discriminate|].
  destruct k as [|k]; cbn [fields_from nth_error].
  - rewrite Z.add_0_r. split; [intros [= <-]; eauto|intros (a & [= <-] & ->); reflexivity].
  - rewrite IH. replace (s + 1 + Z.of_nat k) with (s + Z.of_nat (S k)) by lia. reflexivity.
Qed.

(** whatever the shapes: field k of row r goes to item r of the bytes column k points to *)
Lemma native_call threader h m x y z rec off cols n : arguments m x y z rec off cols n ->
  (forall r, rec_call threader h m [x; y; z] r -> exists m', r = Done m' /\
    (forall k c o r b, nth_error cols k = Some c -> nth_error off k = Some o -> 0 <= r < n -> 0 <= b < n_item c ->
       m' (n_data c + r * n_item c + b) = m (n_data rec + r * n_item rec + o + b)) /\
    (forall p, (forall k c r b, nth_error cols k = Some c -> 0 <= r < n -> 0 <= b < n_item c -> p <> n_data c + r * n_item c + b) -> m' p = m p)) /\
  (h = Alone -> exists r, rec_call threader h m [x; y; z] r) /\
  (forall T zz, 1 <= T -> exists sched r, rec_call threader (Threaded T zz sched) m [x; y; z] r).
Proof.
  intros A. destruct A. destruct A_stride0 as [S1 S2], A_rows0 as [R1 R2], A_some0 as [N1 N2], A_offs0 as (o & O1 & O2 & O3), A_objs0 as (c0 & slots & -> & C1 & C2 & C3).
  set (fields := fields_from m o 0 cols).
  assert (Ecl : column_list slots (zrange 0 (items c0)) = Some cols) by (rewrite C2; apply (column_list_all slots cols 0); intros k a Hk; rewrite Z.add_0_l; now apply C3).
  assert (Ecall : forall h r, rec_call threader h m [x; y; Arr c0 slots] r <-> exists m', rec_to_colmajor m (n_data rec) (n_item rec) fields n threader h m m' /\ r = Done m').
  { intros h' r. unfold rec_call, convert_call. rewrite A_rec0. destruct (n_str rec) as [|s0 ss]; [contradiction|]. cbn [hd] in S1. subst s0. rewrite Z.eqb_refl, A_void0, C1, O1. cbn [negb Z.eqb Pos.eqb]. rewrite !items_alen.
    assert (El : items c0 =? items o = true) by (rewrite C2, O2, N2; apply Z.eqb_refl). rewrite El, Ecl. cbn [negb].
    replace (n_item rec =? 0) with false by lia. fold fields. destruct fields as [|f0 fs] eqn:Ef.
    - exfalso. unfold fields in Ef. destruct cols; [contradiction|discriminate].
    - rewrite R1. reflexivity. }
  assert (Hne : fields <> []) by (unfold fields; destruct cols; [contradiction|discriminate]).
  assert (Hd : disjoint_columns fields n).
  { intros i j f g Hij Hi Hj p. unfold fields in Hi, Hj. apply fields_nth in Hi, Hj. destruct Hi as (a & Ha & ->), Hj as (b & Hb & ->). cbn [fpData fItemsize field_of]. exact (A_apart0 i j a b Hij Ha Hb p). }
  split; [|split].
  - intros r Hr. apply Ecall in Hr. destruct Hr as (m' & Hr & ->). exists m'. split; [reflexivity|].
    destruct (C26_columns Z m (n_data rec) (n_item rec) fields n threader h m m' A_item0 Hne ltac:(lia) Hd Hr) as [P1 P2]. split.
    + intros k c v r b Hk Hv Hr0 Hb. assert (Hf : nth_error fields k = Some (field_of m o (Z.of_nat k) c)) by (apply fields_nth; exists c; rewrite Z.add_0_l; auto).
      specialize (P1 _ r b (nth_error_In _ _ Hf) Hr0 Hb). unfold col_addr, rec_addr in P1. cbn [fpData fItemsize fOffset field_of] in P1. rewrite (O3 k v Hv) in P1. exact P1.
    + intros p Hp. apply P2. intros f r b Hin Hr0 Hb. apply In_nth_error in Hin. destruct Hin as (k & Hk). apply fields_nth in Hk. destruct Hk as (c & Hk & ->).
      unfold col_addr. cbn [fpData fItemsize field_of] in *. now apply (Hp k c).
  - intros ->. unfold rec_to_colmajor in Ecall. destruct (threader && (n >? 16384)).
    + eexists. apply Ecall. eexists. split; [reflexivity|reflexivity].
    + eexists. apply Ecall. eexists. split; reflexivity.
  - intros T zz HT. unfold rec_to_colmajor in Ecall. destruct (threader && (n >? 16384)) eqn:E.
    + set (items := int32 ((n + (16384 - 1)) / 16384)) in *.
      assert (Hit : items = (n + (16384 - 1)) / 16384) by (apply int32_small; change (2 ^ 31) with 2147483648; change (2 ^ 44) with 17592186044416 in R2; lia).
      destruct (index_call_can_return (fun w => map wr (convert m (n_data rec) (n_item rec) fields (w * 16384) (if w * 16384 + 16384 >? n then n else w * 16384 + 16384))) tt items T zz m) as (sched & m' & H); [rewrite Hit; lia|exact HT|].
      exists sched, (Done m'). apply Ecall. exists m'. split; [exact H|reflexivity].
    + exists [], (Done (run_ops tt (map wr (convert m (n_data rec) (n_item rec) fields 0 n)) m)). apply Ecall. eexists. split; reflexivity.
Qed.

(** ======== C79 ======== *)
(** A documented call returns None, alone or on threads with any schedule, and has filled every column with its field and changed nothing else. *)
Theorem C79_columns_partial : forall threader h m x y z rec off cols n,
  documented m x y z rec off cols n ->
  (forall r, rec_call threader h m [x; y; z] r -> exists m', r = Done m' /\ columns_filled m m' rec off cols n) /\
  (h = Alone -> exists r, rec_call threader h m [x; y; z] r) /\
  (forall T zz, 1 <= T -> exists sched r, rec_call threader (Threaded T zz sched) m [x; y; z] r).
Proof.
  intros threader h m x y z rec off cols n (A & [_ V] & VC). destruct (native_call threader h m x y z rec off cols n A) as (H1 & H2). split; [|exact H2].
  intros r Hr. destruct (H1 r Hr) as (m' & -> & P1 & P2). exists m'. split; [reflexivity|]. split.
  - intros k c o q b Hk Ho Hq Hb. unfold elem. destruct (VC k c Hk) as [_ Vk]. rewrite V, Vk. cbn [hd]. now apply (P1 k).
  - intros p Hp. apply P2. intros k c q b Hk Hq Hb. specialize (Hp k c q b Hk Hq Hb). unfold elem in Hp. destruct (VC k c Hk) as [_ Vk]. rewrite Vk in Hp. exact Hp.
Qed.
Print Assumptions C79_columns_partial.

(** The lengths of the columns are not checked: a column with room for fewer items than there are records is written past its end. *)
Theorem C79_short_column_refuted : forall threader h m x y z rec off cols n k c o L,
  arguments m x y z rec off cols n -> nth_error cols k = Some c -> nth_error off k = Some o -> vector_of c L -> 0 <= L < n ->
  forall r, rec_call threader h m [x; y; z] r -> exists m', r = Done m' /\
    forall b, 0 <= b < n_item c -> m' (n_data c + L * n_item c + b) = m (n_data rec + L * n_item rec + o + b).
Proof.
  intros threader h m x y z rec off cols n k c o L A Hk Ho V HL r Hr. destruct (native_call threader h m x y z rec off cols n A) as (H1 & _).
  destruct (H1 r Hr) as (m' & -> & P1 & _). exists m'. split; [reflexivity|]. intros b Hb. now apply (P1 k).
Qed.
Print Assumptions C79_short_column_refuted.

(** The strides of the columns are not looked at: in a column that is every other item of an array, item 1 gets the field of record 2. *)
Theorem C79_strided_column_refuted : forall threader h m x y z rec off cols n k c o,
  arguments m x y z rec off cols n -> nth_error cols k = Some c -> nth_error off k = Some o -> n_dims c = [n] -> n_str c = [2 * n_item c] -> 3 <= n ->
  forall r, rec_call threader h m [x; y; z] r -> exists m', r = Done m' /\
    forall b, 0 <= b < n_item c -> m' (elem c 1 + b) = m (n_data rec + 2 * n_item rec + o + b).
Proof.
  intros threader h m x y z rec off cols n k c o A Hk Ho _ V Hn r Hr. destruct (native_call threader h m x y z rec off cols n A) as (H1 & _).
  destruct (H1 r Hr) as (m' & -> & P1 & _). exists m'. split; [reflexivity|]. intros b Hb. unfold elem. rewrite V. cbn [hd].
  rewrite <- (P1 k c o 2 b) by (auto; lia). f_equal. lia.
Qed.
Print Assumptions C79_strided_column_refuted.

(** The dtype of the offsets is not looked at: an int32 array [o0; o1] is read as one 64-bit number, o0 + 2^32*o1 *)
Theorem C79_int32_offsets_refuted : forall m a o0 o1, 0 <= o0 < 2 ^ 32 -> 0 <= o1 < 2 ^ 31 -> ld 4 m a = o0 -> ld 4 m (a + 4) = o1 -> int64_at m a = o0 + 2 ^ 32 * o1.
Proof.
  intros m a o0 o1 H0 H1 L0 L1. assert (E : ld 8 m a = ld 4 m a + 2 ^ 32 * ld 4 m (a + 4)).
  { unfold ld. change (Z.to_nat 8) with 8%nat. change (Z.to_nat 4) with 4%nat. cbn [ldn].
    change (2 ^ 32) with 4294967296. replace (a + 4) with (a + 1 + 1 + 1 + 1) by lia. lia. }
  unfold int64_at, sval. rewrite E, L0, L1. change (2 ^ (64 - 1)) with 9223372036854775808. change (2 ^ 31) with 2147483648 in *. change (2 ^ 32) with 4294967296 in *.
  destruct (Z.ltb_spec (o0 + 4294967296 * o1) 9223372036854775808); [reflexivity|lia].
Qed.
Print Assumptions C79_int32_offsets_refuted.

(** A two-dimensional array of records in Fortran order passes the stride test; its records are taken in memory order, so item 1 of the column is
    the field of record (1,0), not of record (0,1), the second in the array's order. *)
Theorem C79_fortran_refuted : forall threader h m x y z rec off cols p q k c o,
  arguments m x y z rec off cols (p * q) -> n_dims rec = [p; q] -> n_str rec = [n_item rec; n_item rec * p] -> 2 <= p -> 2 <= q ->
  nth_error cols k = Some c -> nth_error off k = Some o -> vector_of c (p * q) ->
  forall r, rec_call threader h m [x; y; z] r -> exists m', r = Done m' /\
    forall b, 0 <= b < n_item c -> m' (elem c 1 + b) = m (n_data rec + 1 * n_item rec + 0 * (n_item rec * p) + o + b).
Proof.
  intros threader h m x y z rec off cols p q k c o A _ _ Hp Hq Hk Ho [_ V] r Hr. destruct (native_call threader h m x y z rec off cols (p * q) A) as (H1 & _).
  destruct (H1 r Hr) as (m' & -> & P1 & _). exists m'. split; [reflexivity|]. intros b Hb. unfold elem. rewrite V. cbn [hd].
  rewrite (P1 k c o 1 b) by (auto; nia). f_equal. lia.
Qed.
Print Assumptions C79_fortran_refuted.

(** Arguments that are not arrays, and records without dimensions or without size, are not refused: the process dies or goes wrong. *)
Theorem C79_unchecked_refuted : forall threader h m y z r,
  (rec_call threader h m [Other; y; z] r -> r = Dies) /\
  (forall a s, n_str a = [] -> rec_call threader h m [Arr a s; y; z] r -> r = Dies) /\
  (forall a s, n_str a = [n_item a] -> n_dt a = 20 -> rec_call threader h m [Arr a s; y; Other] r -> r = Dies) /\
  (forall a s c sl o so, n_str a = [n_item a] -> n_dt a = 20 -> n_dt c = 17 -> items c = items o ->
     (exists i, 0 <= i < items c /\ sl i = Other) -> rec_call threader h m [Arr a s; Arr o so; Arr c sl] r -> r = Dies) /\
  (forall a s c sl o so, n_str a = [0] -> n_item a = 0 -> n_dt a = 20 -> n_dt c = 17 -> items c = items o ->
     rec_call threader h m [Arr a s; Arr o so; Arr c sl] r -> r = Dies).
Proof.
  intros threader h m y z r. split; [intros H; exact H|]. split.
  { intros a s E H. cbn [rec_call as_arr] in H. unfold convert_call in H. rewrite ?items_alen in H. rewrite E in H. exact H. }
  split; [intros a s E V H; cbn [rec_call as_arr] in H; rewrite E, V, Z.eqb_refl in H; exact H|]. split.
  - intros a s c sl o so E V C L (i & Hi & Ei) H. cbn [rec_call as_arr] in H. unfold convert_call in H. rewrite ?items_alen in H. rewrite E, V, C, Z.eqb_refl, L, Z.eqb_refl in H. cbn [negb Z.eqb Pos.eqb] in H.
    assert (N : column_list sl (zrange 0 (items c)) = None).
    { assert (G : forall l, In i l -> column_list sl l = None).
      { induction l as [|j l IH]; [intros []|]. cbn [column_list In]. intros [->|Hin]; [now rewrite Ei|]. rewrite (IH Hin). now destruct (as_arr (sl j)). }
      apply G. apply zrange_In. lia. }
    rewrite <- L, N, !Z.eqb_refl in H. exact H.
  - intros a s c sl o so E I0 V C L H. cbn [rec_call as_arr] in H. unfold convert_call in H. rewrite ?items_alen in H. rewrite E, V, C, I0, L, !Z.eqb_refl in H. cbn [negb] in H.
    rewrite ?Z.eqb_refl in H. cbn [negb] in H. destruct (column_list sl (zrange 0 (items o))); exact H.
Qed.
Print Assumptions C79_unchecked_refuted.

(** Records, and no columns: the call does not return (C27_no_fields_hangs_refuted). *)
Theorem C79_no_columns_refuted : forall threader h m a s c sl o so r, n_str a = [n_item a] -> n_dt a = 20 -> 0 < n_item a -> 0 < items a -> n_dt c = 17 -> items c = 0 -> items o = 0 ->
  rec_call threader h m [Arr a s; Arr o so; Arr c sl] r -> r = Hangs.
Proof.
  intros threader h m a s c sl o so r E V I0 R C L1 L2 H. cbn [rec_call as_arr] in H. unfold convert_call in H. rewrite ?items_alen in H. rewrite E, V, C, L1, L2, Z.eqb_refl in H. cbn [negb Z.eqb Pos.eqb] in H.
  change (column_list sl (zrange 0 0)) with (@Some (list npa) []) in H. replace (n_item a =? 0) with false in H by lia. cbn [fields_from] in H.
  destruct (Z.ltb_spec 0 (items a)); [exact H|lia].
Qed.
Print Assumptions C79_no_columns_refuted.

(** What is refused: another number of arguments, strided records, another dtype, columns that are not in an object array, as many offsets as columns; memory is unchanged *)
Theorem C79_refused : forall threader h m r,
  (forall args, length args <> 3%nat -> rec_call threader h m args r -> r = Raises) /\
  (forall a s y z, n_str a <> [] -> hd 0 (n_str a) <> n_item a -> rec_call threader h m [Arr a s; y; z] r -> r = Raises) /\
  (forall a s y z, n_str a <> [] -> n_dt a <> 20 -> rec_call threader h m [Arr a s; y; z] r -> r = Raises) /\
  (forall a s y c sl, n_str a <> [] -> n_dt c <> 17 -> rec_call threader h m [Arr a s; y; Arr c sl] r -> r = Raises) /\
  (forall a s o so c sl, n_str a <> [] -> items c <> items o -> rec_call threader h m [Arr a s; Arr o so; Arr c sl] r -> r = Raises).
Proof.
  intros threader h m r. split; [|split; [|split; [|split]]].
  - intros args Hl H. destruct args as [|x [|y [|z [|w l]]]]; try exact H. contradiction.
  - intros a s y z Hs Hd H. cbn [rec_call as_arr] in H. unfold convert_call in H. rewrite ?items_alen in H. destruct (n_str a) as [|s0 ss]; [contradiction|]. cbn [hd] in Hd. destruct (Z.eqb_spec (n_item a) s0); [congruence|exact H].
  - intros a s y z Hs Hd H. cbn [rec_call as_arr] in H. unfold convert_call in H. rewrite ?items_alen in H. destruct (n_str a) as [|s0 ss]; [contradiction|]. destruct (Z.eqb_spec (n_item a) s0); [|exact H].
    destruct (Z.eqb_spec (n_dt a) 20); [contradiction|exact H].
  - intros a s y c sl Hs Hd H. cbn [rec_call as_arr] in H. unfold convert_call in H. rewrite ?items_alen in H. destruct (n_str a) as [|s0 ss]; [contradiction|]. destruct (Z.eqb_spec (n_item a) s0); [|exact H].
    destruct (Z.eqb_spec (n_dt a) 20); [|exact H]. destruct (Z.eqb_spec (n_dt c) 17); [contradiction|exact H].
  - intros a s o so c sl Hs Hd H. cbn [rec_call as_arr] in H. unfold convert_call in H. rewrite ?items_alen in H. destruct (n_str a) as [|s0 ss]; [contradiction|]. destruct (Z.eqb_spec (n_item a) s0); [|exact H].
    destruct (Z.eqb_spec (n_dt a) 20); [|exact H]. destruct (Z.eqb_spec (n_dt c) 17); [|exact H]. cbn [negb] in H. destruct (Z.eqb_spec (items c) (items o)); [contradiction|exact H].
Qed.
Print Assumptions C79_refused.

(** the hypotheses: 100000 records of an int32 at 0 and an int64 at 4, offsets at 8000000, the pointers of the columns at 8000100 *)
Definition demo_mem : bytes := fun a => if a =? 8000008 then 4 else 0.
Definition demo_rec : npa := mkNpa 20 12 [100000] [12] 0.
Definition demo_cols : list npa := [mkNpa 5 4 [100000] [4] 2000000; mkNpa 7 8 [100000] [8] 3000000].
Example C79_nonvacuous : documented demo_mem (Arr demo_rec (fun _ => Other)) (Arr (mkNpa 7 8 [2] [8] 8000000) (fun _ => Other))
  (Arr (mkNpa 17 8 [2] [8] 8000100) (fun i => if i =? 0 then Arr (mkNpa 5 4 [100000] [4] 2000000) (fun _ => Other) else Arr (mkNpa 7 8 [100000] [8] 3000000) (fun _ => Other)))
  demo_rec [0; 4] demo_cols 100000.
Proof.
  split; [constructor|split].
  - reflexivity.
  - reflexivity.
  - split; [reflexivity|discriminate].
  - reflexivity.
  - split; [reflexivity|]. change (2 ^ 44) with 17592186044416. lia.
  - split; [discriminate|reflexivity].
  - eexists. split; [reflexivity|]. split; [reflexivity|]. intros [|[|[|k]]] v; cbn [nth_error]; intros [= <-]; vm_compute; reflexivity.
  - eexists _, _. split; [reflexivity|]. split; [reflexivity|]. split; [reflexivity|]. intros [|[|[|k]]] v; cbn [nth_error demo_cols]; intros [= <-]; reflexivity.
  - intros [|[|[|i]]] [|[|[|j]]] a b Hij; cbn [nth_error demo_cols]; try (intros; discriminate); try congruence; intros [= <-] [= <-] p; cbn [n_data n_item]; lia.
  - intros [|[|[|k]]] c o [|[|[|i]]] a r b; cbn [nth_error demo_cols]; try (intros; discriminate); intros [= <-] [= <-] [= <-]; cbn [n_data n_item demo_rec]; lia.
  - split; reflexivity.
  - intros [|[|[|k]]] c; cbn [nth_error demo_cols]; try discriminate; intros [= <-]; split; reflexivity.
Qed.
