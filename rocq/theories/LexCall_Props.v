(** LexCall_Props.v - C68: what pn.lexsort does with its arguments; C69: its keywords index= and cutoffs=. *)
From Coq Require Import SpecFloat Sorted.
From Verif Require Import Base Threads_Model Jobs_Model Sort_Model SortCmp_Model ParSort_Model SortHook_Model Kernel_Model.
From Verif Require Import Sort_Base_Proofs Sort_Insert_Proofs Sort_Merge_Proofs SortCmp_Proofs Sort_Merge_Base_Proofs Sort_Props ParSort_Proofs ParSort_Tree_Proofs ParSort_Props ParArg_Props LexCall_Model.

(** * Specification *)
(** the bytes of item r, the least significant first; the number they make; the values of an array as NumPy defines them:
    numbers by type and byte order, byte strings by their bytes, str by its code points *)
Definition bytes_of (a : arr) (first k r : Z) : list Z :=
  let l := map (fun j => a_bytes a (a_off a + r * a_stride a + first + j)) (zrange 0 k) in if a_swap a then rev l else l.
Definition number (l : list Z) : Z := fold_right (fun b v => b + 256 * v) 0 l.
Definition dtype_in (a : arr) (l : list Z) : bool := existsb (Z.eqb (a_dt a)) l.
Definition values (a : arr) : key :=
  let u r := number (bytes_of a 0 (a_item a) r) in let bits := 8 * a_item a in
  if dtype_in a [1; 3; 5; 7; 9] (* int8, short, int, long, long long *) then KInt (fun r => if 2 ^ (bits - 1) <=? u r then u r - 2 ^ bits else u r)
  else if dtype_in a [23] (* float16 *) then KFlt (fun r => decode16 (u r))
  else if dtype_in a [11] then KFlt (fun r => decode32 (u r)) else if dtype_in a [12] then KFlt (fun r => decode64 (u r))
  else if dtype_in a [13] (* longdouble *) then KFlt (fun r => decode80 (u r))
  else if dtype_in a [18] then KStr (Z.to_nat (a_item a)) (fun r => map (fun i => a_bytes a (a_off a + r * a_stride a + i)) (zrange 0 (a_item a)))
  else if dtype_in a [19] then KStr (Z.to_nat (a_item a / 4)) (fun r => map (fun i => number (bytes_of a (4 * i) 4 r)) (zrange 0 (a_item a / 4)))
  else (* bool and the unsigned types *) KInt u.
(** the size of an item of the numeric dtypes *)
Definition dtype_size (dt : Z) : Z := if dt =? 23 then 2 else nth (Z.to_nat dt) [1; 1; 1; 2; 2; 4; 4; 8; 8; 8; 8; 4; 8; 16] 0.
(** the dtypes lexsort sorts: bool, the integers, float32, float64, longdouble, bytes, str *)
Definition sortable_dtype (dt : Z) : Prop := 0 <= dt <= 13 \/ dt = 18 \/ dt = 19.
Definition native (a : arr) : Prop := a_swap a = false.
(** a one-dimensional NumPy array of n items: the item size is the type's; the contiguous flag set means the items are next to each other *)
Definition array_1d (n : Z) (a : arr) : Prop :=
  a_ndim a = 1 /\ a_len a = n /\ 0 < a_item a /\ (0 <= a_dt a <= 13 \/ a_dt a = 23 -> a_item a = dtype_size (a_dt a)) /\
  (a_flag a = true -> a_stride a = a_item a).
(** the keys as positional arguments, or in a list; a kind that promises a stable sort: none, 'mergesort', 'stable' *)
Definition given_as (args : list pyval) (arrays : list arr) : Prop := args = map PArr arrays \/ args = [PList (map PArr arrays)].
Definition stable_kind (kind : option (list Z)) : Prop :=
  kind = None \/ kind = Some [109; 101; 114; 103; 101; 115; 111; 114; 116] \/ kind = Some [115; 116; 97; 98; 108; 101].
(** rows tied on every key; row a before row b, the first of the list deciding first *)
Definition tied (ks : list key) (a b : Z) : bool := forallb (fun k => negb (key_lt k a b) && negb (key_lt k b a)) ks.
Fixpoint comes_before (ks : list key) (a b : Z) : bool :=
  match ks with [] => false | k :: ks => key_lt k a b || (negb (key_lt k b a) && comes_before ks a b) end.
(** [out] is [inp] in lexicographic order, the last key the most significant, ties in the order they had in [inp] *)
Definition stably_sorted (keys : list key) (inp out : list Z) : Prop :=
  Permutation out inp /\ StronglySorted (fun a b => comes_before (rev keys) b a = false) out /\
  forall x, In x inp -> filter (tied keys x) out = filter (tied keys x) inp.

(** * Arguments *)
Lemma given_args args arrays : given_as args arrays -> key_args args = map PArr arrays.
Proof. intros [->| ->]; [destruct arrays; reflexivity|reflexivity]. Qed.
Lemma stable_kind_ok kind : stable_kind kind -> GetKind kind MERGE = MERGE.
Proof. intros [->|[->| ->]]; reflexivity. Qed.
Lemma ensure_shape n a : array_1d n a -> let a' := EnsureContiguousArray a in
  a_ndim a' = 1 /\ a_len a' = n /\ a_item a' = a_item a /\ a_stride a' = a_item a /\ a_dt a' = a_dt a /\ a_swap a' = a_swap a.
Proof. intros (H1 & H2 & H3 & H4 & H5). unfold EnsureContiguousArray. destruct (a_flag a) eqn:E; cbn; repeat split; auto. Qed.

Lemma build_arrays n l : (forall a, In a l -> array_1d n a) -> build (map PArr l) = BOk (map (fun a => Some (EnsureContiguousArray a)) l).
Proof.
  induction l as [|a l IH]; intros H; cbn [map build]; [reflexivity|].
  destruct (ensure_shape n a (H a (or_introl eq_refl))) as (E1 & E2 & E3 & E4 & _). rewrite E1, E4, E3, !Z.eqb_refl. change (1 =? 0) with false. cbn [andb].
  rewrite IH by (intros b Hb; apply H; now right). reflexivity.
Qed.
Lemma bai_arrays n l : (forall a, In a l -> array_1d n a) -> BuildArrayInfo (map PArr l) = BOk (map (fun a => Some (EnsureContiguousArray a)) l).
Proof.
  intros H. unfold BuildArrayInfo. rewrite (build_arrays n) by exact H.
  replace (forallb _ _) with true; [reflexivity|]. symmetry. apply forallb_forall. intros x Hx. apply in_map_iff in Hx. destruct Hx as (a & <- & Ha).
  destruct l as [|a0 l]; [destruct Ha|]. cbn [rows_of map info_len].
  destruct (ensure_shape n a (H a Ha)) as (_ & -> & _). destruct (ensure_shape n a0 (H a0 (or_introl eq_refl))) as (_ & -> & _). apply Z.eqb_refl.
Qed.

(** as the code reads them, the byte order put right *)
Definition reads (a : arr) : key :=
  let t := atop_of (a_dt a) in
  match kind_of t with
  | KKInt => KInt (int_item t (a_swap a) a)
  | KKFlt => KFlt (flt_item t (a_swap a) a)
  | KKStr => KStr (length (str_item t (a_swap a) a 0)) (str_item t (a_swap a) a)
  end.
(** the copy has the same values *)
Lemma ldn_ext k : forall (m m' : Z -> Z) x x', (forall j, 0 <= j < Z.of_nat k -> m (x + j) = m' (x' + j)) -> ldn k m x = ldn k m' x'.
Proof.
  induction k as [|k IH]; intros m m' x x' H; cbn [ldn]; [reflexivity|]. f_equal.
  - specialize (H 0 ltac:(lia)). now rewrite !Z.add_0_r in H.
  - f_equal. apply IH. intros j Hj. specialize (H (j + 1) ltac:(lia)). now replace (x + (j + 1)) with (x + 1 + j) in H by lia; replace (x' + (j + 1)) with (x' + 1 + j) in H by lia.
Qed.
Lemma number_ext sw k (m m' : Z -> Z) x x' : 0 <= k -> (forall j, 0 <= j < k -> m (x + j) = m' (x' + j)) -> number_at sw k m x = number_at sw k m' x'.
Proof. intros Hk H. unfold number_at, ld. rewrite (ldn_ext (Z.to_nat k) m m' x x') by (intros j Hj; apply H; lia). reflexivity. Qed.
Lemma copy_bytes n a r j : array_1d n a -> 0 <= j < a_item a ->
  a_bytes (EnsureContiguousArray a) (item_addr (EnsureContiguousArray a) r + j) = a_bytes a (item_addr a r + j).
Proof.
  intros (H1 & H2 & H3 & H4 & H5) Hj. unfold EnsureContiguousArray. destruct (a_flag a); [reflexivity|]. unfold item_addr. cbn.
  f_equal. rewrite (Z.add_comm (r * a_item a)), Z.div_add, Z.mod_add, Z.div_small, Z.mod_small by lia. lia.
Qed.
Lemma units_ext sw k cnt (m m' : Z -> Z) x x' : 0 < k -> 0 <= cnt -> (forall j, 0 <= j < k * cnt -> m (x + j) = m' (x' + j)) -> units sw k cnt m x = units sw k cnt m' x'.
Proof.
  intros Hk Hc H. unfold units. apply map_ext_in. intros i Hi. apply zrange_In in Hi. apply number_ext; [lia|]. intros j Hj.
  specialize (H (i * k + j) ltac:(nia)). now rewrite !Z.add_assoc in H.
Qed.
Lemma sortable_cases dt : sortable_dtype dt \/ dt = 23 -> In dt [0;1;2;3;4;5;6;7;8;9;10;11;12;13;18;19;23].
Proof. intros [[H|[->| ->]]| ->]; [|cbn; tauto|cbn; tauto|cbn; tauto]. assert (D : dt = 0 \/ dt = 1 \/ dt = 2 \/ dt = 3 \/ dt = 4 \/ dt = 5 \/ dt = 6 \/ dt = 7 \/ dt = 8 \/ dt = 9 \/ dt = 10 \/ dt = 11 \/ dt = 12 \/ dt = 13) by lia. repeat (destruct D as [->|D]; [cbn; tauto|]). subst dt. cbn. tauto. Qed.
Definition same_key (k k' : key) : Prop := forall r, match k, k' with
  | KInt v, KInt v' => v r = v' r | KFlt v, KFlt v' => v r = v' r | KStr L v, KStr L' v' => v r = v' r /\ L = L' | _, _ => False end.
Lemma size_table dt : sortable_dtype dt \/ dt = 23 -> dt <> 18 -> dt <> 19 -> dtype_size dt = c_size (atop_of dt).
Proof. intros H N1 N2. apply sortable_cases in H. cbn [In] in H. repeat (destruct H as [<-|H]; [first [reflexivity | congruence]|]). destruct H. Qed.
Lemma copy_values n a : array_1d n a -> sortable_dtype (a_dt a) \/ a_dt a = 23 -> same_key (reads (EnsureContiguousArray a)) (reads a).
Proof.
  intros Ha Hd r. pose proof (ensure_shape n a Ha) as (E1 & E2 & E3 & E4 & E5 & E6). pose proof Ha as (_ & _ & Hi & Hsz & _).
  assert (CB : forall r j, 0 <= j < a_item a -> a_bytes (EnsureContiguousArray a) (item_addr (EnsureContiguousArray a) r + j) = a_bytes a (item_addr a r + j)) by (intros; now apply (copy_bytes n)).
  unfold reads. rewrite E5, E6. set (a' := EnsureContiguousArray a) in *. clearbody a'.
  assert (NE : a_dt a <> 18 -> a_dt a <> 19 -> forall sw r, number_at sw (c_size (atop_of (a_dt a))) (a_bytes a') (item_addr a' r) = number_at sw (c_size (atop_of (a_dt a))) (a_bytes a) (item_addr a r)).
  { intros N1 N2 sw r0. rewrite <- (size_table _ Hd N1 N2), <- Hsz by (unfold sortable_dtype in Hd; lia). apply number_ext; [lia|]. intros j Hj. now apply CB. }
  assert (SE : forall sw r, str_item (atop_of (a_dt a)) sw a' r = str_item (atop_of (a_dt a)) sw a r).
  { intros sw r0. unfold str_item. rewrite E3. destruct (atop_of (a_dt a) =? 19); apply units_ext; try lia; try (apply Z.div_pos; lia).
    - intros j Hj. apply CB. lia.
    - intros j Hj. apply CB. pose proof (Z.mul_div_le (a_item a) 4 ltac:(lia)). lia. }
  pose proof (sortable_cases _ Hd) as D.
  assert (KS : kind_of (atop_of (a_dt a)) = KKStr -> a_dt a = 18 \/ a_dt a = 19).
  { cbn [In] in D. repeat (destruct D as [<-|D]; [vm_compute; try discriminate; auto|]). destruct D. }
  destruct (kind_of (atop_of (a_dt a))) eqn:EK.
  - unfold int_item. rewrite NE; [reflexivity| |]; intros X; rewrite X in EK; vm_compute in EK; discriminate.
  - unfold flt_item. rewrite NE; [reflexivity| |]; intros X; rewrite X in EK; vm_compute in EK; discriminate.
  - rewrite !SE. auto.
Qed.
Lemma ldn_number k : forall (m : Z -> Z) x, ldn k m x = number (map (fun j => m (x + j)) (zrange 0 (Z.of_nat k))).
Proof.
  assert (G : forall k (m : Z -> Z) x, ldn k m x = number (map (fun j => m (x + j)) (zseq 0 k))).
  { clear. induction k as [|k IH]; intros m x; cbn [ldn zseq map number fold_right]; [reflexivity|]. f_equal; [f_equal; lia|]. rewrite IH. unfold number. f_equal. f_equal.
    clear. change 1 with (0 + 1) at 2. generalize 0 at 1 2. induction k as [|k IH]; intros z; cbn; [reflexivity|]. f_equal; [f_equal; lia|]. apply IH. }
  intros m x. rewrite G. unfold zrange. replace (Z.to_nat (Z.of_nat k - 0)) with k by lia. reflexivity.
Qed.
Lemma reads_values n a : array_1d n a -> sortable_dtype (a_dt a) \/ a_dt a = 23 -> native a -> same_key (reads a) (values a).
Proof.
  intros (_ & _ & Hi & Hsz & _) Hd Hs r.
  assert (N : forall k first, number_at false (Z.of_nat k) (a_bytes a) (item_addr a r + first) = number (bytes_of a first (Z.of_nat k) r)).
  { intros k first. unfold number_at, ld, bytes_of. rewrite Hs, Nat2Z.id, ldn_number. unfold item_addr. reflexivity. }
  assert (NI : forall c, a_item a = c -> number_at false c (a_bytes a) (item_addr a r) = number (bytes_of a 0 (a_item a) r)).
  { intros c <-. specialize (N (Z.to_nat (a_item a)) 0). rewrite Z2Nat.id, Z.add_0_r in N by lia. exact N. }
  assert (ST : a_dt a = 18 \/ a_dt a = 19 \/ a_item a = dtype_size (a_dt a)) by (unfold sortable_dtype in Hd; destruct Hd as [[Hd|[Hd|Hd]]|Hd]; auto).
  pose proof (sortable_cases _ Hd) as D. unfold reads, values, dtype_in. rewrite Hs. cbn [In] in D.
  repeat (destruct D as [E|D]; [rewrite <- E in *|]); [..|contradiction].
  all: match goal with |- context[kind_of (atop_of ?d)] => let k := eval vm_compute in (kind_of (atop_of d)) in change (kind_of (atop_of d)) with k end.
  all: cbv [existsb Z.eqb Pos.eqb orb].
  all: try match goal with |- context[int_item (atop_of ?d)] => let c := eval vm_compute in (c_size (atop_of d)) in assert (CS : c_size (atop_of d) = c) by reflexivity;
         let sg := eval vm_compute in (signed_t (atop_of d)) in assert (SG : signed_t (atop_of d) = sg) by reflexivity; unfold int_item; rewrite CS, SG;
         destruct ST as [ST|[ST|ST]]; [discriminate ST|discriminate ST|]; change (a_item a = c) in ST; rewrite (NI _ ST), ?ST end.
  all: try reflexivity.
  all: try (unfold sval; rewrite Z.ltb_antisym; destruct (_ <=? _); reflexivity).
  all: try match goal with |- context[flt_item (atop_of ?d)] => let c := eval vm_compute in (c_size (atop_of d)) in assert (CS : c_size (atop_of d) = c) by reflexivity;
         unfold flt_item; rewrite CS; destruct ST as [ST|[ST|ST]]; [discriminate ST|discriminate ST|]; change (a_item a = c) in ST; rewrite (NI _ ST), ?ST; reflexivity end.
  - unfold str_item. change (atop_of 18 =? 19) with true. cbv iota. unfold units. split.
    + apply map_ext. intros i. rewrite Z.mul_1_r. unfold number_at, ld, item_addr. change (Z.to_nat 1) with 1%nat. cbn [ldn]. cbv zeta iota. lia.
    + rewrite map_length, zrange_length. lia.
  - unfold str_item. change (atop_of 19 =? 19) with false. cbv iota. unfold units. split.
    + apply map_ext. intros i. rewrite (Z.mul_comm i 4). apply (N 4%nat).
    + rewrite map_length, zrange_length. f_equal. lia.
Qed.
Lemma same_key_lt k k' a b : same_key k k' -> key_lt k a b = key_lt k' a b.
Proof.
  intros H. pose proof (H a) as Ha. pose proof (H b) as Hb. destruct k, k'; cbn in *; try contradiction.
  - now rewrite Ha, Hb.
  - destruct Ha as [-> _], Hb as [-> _]. reflexivity.
  - now rewrite Ha, Hb.
Qed.

(** the column the code sorts by *)
Lemma column_native n rows a : array_1d n a -> sortable_dtype (a_dt a) -> native a ->
  SortIndex_column rows (Some (EnsureContiguousArray a)) = Some (col_of rows (reads (EnsureContiguousArray a))).
Proof.
  intros Ha Hd Hs. pose proof (ensure_shape n a Ha) as (_ & _ & _ & _ & E5 & E6). cbn [SortIndex_column]. unfold reads. rewrite E5, E6, Hs.
  assert (D : atop_of (a_dt a) <> 11).
  { pose proof (sortable_cases _ (or_introl Hd)) as D. cbn [In] in D. assert (a_dt a <> 23) by (unfold sortable_dtype in Hd; lia).
    repeat (destruct D as [E|D]; [first [congruence | rewrite <- E; intros X; vm_compute in X; discriminate]|]). destruct D. }
  replace (atop_of (a_dt a) =? 11) with false by lia. destruct (kind_of _); reflexivity.
Qed.
Lemma type_ok_sortable dt : sortable_dtype dt \/ dt = 23 -> type_ok (atop_of dt) = true.
Proof. intros H. apply sortable_cases in H. cbn [In] in H. repeat (destruct H as [<-|H]; [reflexivity|]). destruct H. Qed.
(** all items of a string key have one length *)
Lemma reads_wf n a : key_wf n (reads a).
Proof.
  unfold reads. destruct (kind_of _); cbn [key_wf]; auto. intros r _. unfold str_item, units. destruct (_ =? 19); now rewrite !map_length.
Qed.

(** the outcome of an accepted call *)
Lemma accepted F bits start pw lw args kind cut idx arrays n :
  key_args args = map PArr arrays -> arrays <> [] -> (forall a, In a arrays -> array_1d n a /\ (sortable_dtype (a_dt a) \/ a_dt a = 23)) ->
  match cut with NoCut => True | Cut l => l <> [] /\ last l 0 = n | BadCut => False end ->
  match idx with NoIndex => True | Index b len => len <= 0 \/ (len <= n /\ b = bits) | BadIndex => False end ->
  let len := match idx with Index _ len => if 0 <? len then len else n | _ => n end in
  lexsort_c F bits start pw lw args kind cut idx =
    RSort len (fill_index F start cut idx len ;; sort_all F start pw lw (GetKind kind MERGE) cut len (map (fun a => SortIndex_column n (Some (EnsureContiguousArray a))) arrays)).
Proof.
  intros Hk Hne Ha Hcut Hidx len. unfold lexsort_c. rewrite Hk, (bai_arrays n) by (intros a Hin; now apply Ha).
  destruct arrays as [|a0 arrays]; [congruence|]. cbn [map]. destruct (ensure_shape n a0 (proj1 (Ha a0 (or_introl eq_refl)))) as (_ & EL & _). cbn [info_len]. rewrite EL.
  assert (TO : negb (forallb (fun i => type_ok match i with Some a => atop_of (a_dt a) | None => 0 end) (Some (EnsureContiguousArray a0) :: map (fun a => Some (EnsureContiguousArray a)) arrays)) = false).
  { apply negb_false_iff, forallb_forall. change (Some (EnsureContiguousArray a0) :: map (fun a => Some (EnsureContiguousArray a)) arrays) with (map (fun a => Some (EnsureContiguousArray a)) (a0 :: arrays)).
    intros x Hx. apply in_map_iff in Hx. destruct Hx as (a & <- & Hin). destruct (Ha a Hin) as [A1 A2]. destruct (ensure_shape n a A1) as (_ & _ & _ & _ & -> & _). now apply type_ok_sortable. }
  rewrite TO. rewrite map_map.
  destruct cut as [| |[|c l]]; [|contradiction|destruct Hcut; congruence|].
  - subst len. destruct idx as [| |b len]; [reflexivity|contradiction|]. destruct (0 <? len) eqn:E; [|reflexivity].
    destruct Hidx as [Hidx|[H1 ->]]; [lia|]. rewrite Z.eqb_refl. replace (n <? len) with false by lia. reflexivity.
  - destruct Hcut as [_ ->]. rewrite Z.eqb_refl. cbn [negb]. subst len. destruct idx as [| |b len]; [reflexivity|contradiction|]. destruct (0 <? len) eqn:E; [|reflexivity].
    destruct Hidx as [Hidx|[H1 ->]]; [lia|]. rewrite Z.eqb_refl. replace (n <? len) with false by lia. reflexivity.
Qed.

Lemma columns_native n arrays : (forall a, In a arrays -> array_1d n a /\ sortable_dtype (a_dt a) /\ native a) ->
  map (fun a => SortIndex_column n (Some (EnsureContiguousArray a))) arrays = map (fun a => Some (col_of n (reads (EnsureContiguousArray a)))) arrays.
Proof. intros H. apply map_ext_in. intros a Ha. destruct (H a Ha) as (H1 & H2 & H3). now apply (column_native n). Qed.
Lemma sort_all_nocut F start pw lw mode n : forall cols, sort_all F start pw lw mode NoCut n (map Some cols) = sort_columns F mode cols start n pw.
Proof. induction cols as [|c cols IH]; cbn; [reflexivity|]. now rewrite IH. Qed.

(** * C68 *)
Lemma rowcmp_same : forall ks ks' a b, Forall2 same_key ks ks' -> rowcmp ks a b -> rowcmp ks' a b.
Proof.
  intros ks ks' a b H. induction H as [|k k' ks ks' HK _ IH]; cbn; [auto|]. rewrite !(same_key_lt k k') by exact HK. intros [H|(H1 & H2 & H3)]; auto.
Qed.
Lemma Forall2_rev {A} (R : A -> A -> Prop) l l' : Forall2 R l l' -> Forall2 R (rev l) (rev l').
Proof. induction 1; cbn; [constructor|]. apply Forall2_app; auto. Qed.
Lemma keys_same n arrays : (forall a, In a arrays -> array_1d n a /\ sortable_dtype (a_dt a) /\ native a) ->
  Forall2 same_key (map (fun a => reads (EnsureContiguousArray a)) arrays) (map values arrays).
Proof.
  induction arrays as [|a l IH]; intros H; cbn; constructor.
  - destruct (H a (or_introl eq_refl)) as (H1 & H2 & H3). intros r. pose proof (copy_values n a H1 (or_introl H2) r) as A. pose proof (reads_values n a H1 (or_introl H2) H3 r) as B.
    destruct (reads (EnsureContiguousArray a)), (reads a), (values a); try contradiction; try (etransitivity; eassumption). destruct A as [-> ->], B as [-> ->]. auto.
  - apply IH. intros b Hb. apply H. now right.
Qed.
Lemma nonan_copy n a : array_1d n a -> sortable_dtype (a_dt a) -> native a -> key_nonan n (values a) -> key_nonan n (reads (EnsureContiguousArray a)).
Proof.
  intros H1 H2 H4 H3. pose proof (keys_same n [a] ltac:(intros b [<-|[]]; auto)) as C. cbn [map] in C. inversion_clear C as [|? ? ? ? C' _].
  destruct (reads (EnsureContiguousArray a)) as [|L v|v] eqn:E; cbn; auto.
  intros r Hr. specialize (C' r). destruct (values a); try contradiction. rewrite C'. now apply H3.
Qed.

(** keys as separate arguments or in one list, contiguous or not, any number of them: the result is NumPy's. *)
Theorem C68_lexsort_partial F start pw lw args kind arrays n (m : Z -> Z) :
  given_as args arrays -> arrays <> [] ->
  (forall a, In a arrays -> array_1d n a /\ sortable_dtype (a_dt a) /\ native a /\ key_nonan n (values a)) ->
  stable_kind kind -> 0 <= n < Z.of_nat F -> apart start n pw ->
  exists p, pn_lexsort F start pw lw args kind NoCut NoIndex = Native (RSort n p) /\
  exists m', exec (allowed true start n pw) p m = Finished tt m' /\
    Permutation (items m' start (start + n)) (zrange 0 n) /\
    (forall i j, start <= i < j -> j < start + n -> row_before (map values arrays) (m' i) (m' j)) /\
    (forall x, allowed true start n pw x = false -> m' x = m x).
Proof.
  intros Hk Hne Ha Hmode Hn Hap. apply given_args in Hk. apply stable_kind_ok in Hmode. unfold pn_lexsort.
  rewrite (accepted F 32 start pw lw args kind NoCut NoIndex arrays n Hk Hne) by (cbn; auto; intros a Hin; destruct (Ha a Hin) as (H1 & H2 & _); auto).
  rewrite columns_native by (intros a Hin; destruct (Ha a Hin) as (H1 & H2 & H3 & _); auto). rewrite Hmode.
  rewrite <- (map_map (fun a => col_of n (reads (EnsureContiguousArray a))) Some), sort_all_nocut, <- (map_map (fun a => reads (EnsureContiguousArray a)) (col_of n)).
  eexists. split; [reflexivity|].
  destruct (C35_lexsort F (map (fun a => reads (EnsureContiguousArray a)) arrays) start n pw m Hn Hap) as (m' & E & P & S & R).
  { intros k Hin. apply in_map_iff in Hin. destruct Hin as (a & <- & Hin). destruct (Ha a Hin) as (H1 & H2 & H3 & H4). split; [apply reads_wf|now apply nonan_copy]. }
  exists m'. split; [exact E|]. split; [exact P|]. split; [|exact R]. intros i j Hi Hj. specialize (S i j Hi Hj). unfold row_before in *.
  eapply rowcmp_same; [|exact S]. apply Forall2_rev, (keys_same n). intros a Hin. destruct (Ha a Hin) as (H1 & H2 & H3 & _). auto.
Qed.

(** the same on threads, each column sorted alone or threaded with any schedule (strings alone, see C37) *)
Theorem C68_lexsort_threads_partial F start pw lw args kind arrays hows n (m m' : Z -> Z) :
  given_as args arrays -> arrays <> [] -> length hows = length arrays ->
  (forall a, In a arrays -> array_1d n a /\ sortable_dtype (a_dt a) /\ native a /\ key_nonan n (values a)) ->
  (forall a T zz s, In (a, Threaded T zz s) (combine arrays hows) -> a_dt a <= 13) ->
  stable_kind kind -> 0 <= n < 2 ^ 63 -> 2 * n + 1 < Z.of_nat F -> arg_layout start pw n -> apart start n pw ->
  exists cols, map (fun a => SortIndex_column n (Some (EnsureContiguousArray a))) arrays = map Some cols /\
    pn_lexsort F start pw lw args kind NoCut NoIndex = Native (RSort n (fill_range F start n ;; sort_columns F MERGE cols start n pw)) /\
    (items m start (start + n) = zrange 0 n -> columns_call F MERGE (combine cols hows) start pw n m m' ->
     Permutation (items m' start (start + n)) (zrange 0 n) /\
     (forall i j, start <= i < j -> j < start + n -> row_before (map values arrays) (m' i) (m' j))).
Proof.
  intros Hk Hne HL Ha Hstr Hmode Hn HF Hal Hap. apply given_args in Hk. apply stable_kind_ok in Hmode. exists (map (fun a => col_of n (reads (EnsureContiguousArray a))) arrays).
  rewrite columns_native by (intros a Hin; destruct (Ha a Hin) as (H1 & H2 & H3 & _); auto). rewrite map_map. split; [reflexivity|]. split.
  { unfold pn_lexsort. rewrite (accepted F 32 start pw lw args kind NoCut NoIndex arrays n Hk Hne) by (cbn; auto; intros a Hin; destruct (Ha a Hin) as (H1 & H2 & _); auto).
    rewrite columns_native by (intros a Hin; destruct (Ha a Hin) as (H1 & H2 & H3 & _); auto). rewrite Hmode.
    now rewrite <- (map_map (fun a => col_of n (reads (EnsureContiguousArray a))) Some), sort_all_nocut. }
  intros Hm Hc. set (keys := combine (map (fun a => reads (EnsureContiguousArray a)) arrays) hows).
  assert (EC : combine (map (fun a => col_of n (reads (EnsureContiguousArray a))) arrays) hows = map (fun kh => (col_of n (fst kh), snd kh)) keys).
  { unfold keys. clear. revert hows. induction arrays as [|a l IH]; intros [|h hows]; cbn; try reflexivity. now rewrite IH. }
  rewrite EC in Hc.
  assert (EF : map fst keys = map (fun a => reads (EnsureContiguousArray a)) arrays).
  { unfold keys. clear -HL. revert hows HL. induction arrays as [|a l IH]; intros [|h hows] HL; cbn in *; try reflexivity; try discriminate. now rewrite IH by lia. }
  destruct (C35_lexsort_threads F keys start pw n m m') as [P S]; try assumption.
  { intros kh Hin. unfold keys in Hin. assert (exists a, In (a, snd kh) (combine arrays hows) /\ fst kh = reads (EnsureContiguousArray a)) as (a & Hin' & E).
    { clear -Hin. revert hows Hin. induction arrays as [|a l IH]; intros [|h hows] Hin; cbn in *; try contradiction. destruct Hin as [<-|Hin]; [exists a; cbn; auto|]. destruct (IH hows Hin) as (b & B1 & B2). exists b. auto. }
    pose proof (in_combine_l _ _ _ _ Hin') as Hina. destruct (Ha a Hina) as (H1 & H2 & H3 & H4). unfold fits_call. rewrite E. split; [apply reads_wf|]. split; [now apply nonan_copy|].
    destruct (snd kh) as [|T zz s] eqn:Eh; [exact I|]. specialize (Hstr a T zz s Hin'). destruct (ensure_shape n a H1) as (_ & _ & _ & _ & E5 & _). unfold reads. rewrite E5.
    pose proof (sortable_cases _ (or_introl H2)) as D. cbn [In] in D. repeat (destruct D as [D0|D]; [first [lia | rewrite <- D0; vm_compute; exact I]|]). destruct D. }
  split; [exact P|]. intros i j Hi Hj. specialize (S i j Hi Hj). unfold row_before in *. rewrite EF in S.
  eapply rowcmp_same; [|exact S]. apply Forall2_rev, (keys_same n). intros a Hin. destruct (Ha a Hin) as (H1 & H2 & H3 & _). auto.
Qed.

(** a call that is sorted natively, without keywords, has only suitable keys: everything else raises, so np.lexsort gets it, or crashes *)
Lemma build_only l : forall infos, build l = BOk infos ->
  Forall2 (fun v i => match i with Some a' => exists a, v = PArr a /\ a' = EnsureContiguousArray a /\ a_ndim a = 1 | None => v = PNone end) l infos.
Proof.
  induction l as [|v l IH]; intros infos H; cbn [build] in H; [injection H as <-; constructor|].
  destruct v as [|a| | |]; try discriminate.
  - destruct (build l) as [| |infos'] eqn:E; try discriminate. injection H as <-. constructor; [reflexivity|now apply IH].
  - cbv zeta in H. destruct (a_ndim (EnsureContiguousArray a) =? 0); [discriminate|]. destruct (_ && _) eqn:EA; [|discriminate].
    destruct (build l) as [| |infos'] eqn:E; try discriminate. injection H as <-. apply andb_true_iff in EA. destruct EA as [EA _]. apply Z.eqb_eq in EA.
    constructor; [|now apply IH]. exists a. split; [reflexivity|]. split; [reflexivity|]. unfold EnsureContiguousArray in EA. destruct (a_flag a); exact EA.
Qed.
Theorem C68_only_suitable_keys F start pw lw args kind n p :
  pn_lexsort F start pw lw args kind NoCut NoIndex = Native (RSort n p) ->
  let given := match args with PList l :: _ => l | _ => args end in
  given <> [] /\
  forall v, In v given -> (v = PNone /\ n = 0) \/
    exists a, v = PArr a /\ a_ndim a = 1 /\ a_len a = n /\ (sortable_dtype (a_dt a) \/ a_dt a = 23).
Proof.
  unfold pn_lexsort. destruct (lexsort_c _ _ _ _ _ _ _ _ _) eqn:E; try discriminate. intros [= <- <-]. cbv zeta. fold (key_args args).
  unfold lexsort_c in E. destruct (BuildArrayInfo (key_args args)) as [| |[|i0 is]] eqn:EB; try discriminate. cbv iota zeta in E.
  destruct (forallb _ (i0 :: is)) eqn:ET; cbn [negb] in E; [|discriminate]. destruct i0 as [a0|] eqn:E0; [|discriminate]. injection E as <- _. rewrite <- E0 in *.
  unfold BuildArrayInfo in EB. destruct (build (key_args args)) as [| |infos] eqn:EI; try discriminate. destruct (forallb _ infos) eqn:ER; [|discriminate]. injection EB as ->.
  apply build_only in EI. split. { intros X. rewrite X in EI. inversion EI. }
  intros v Hv. rewrite forallb_forall in ET, ER. cbn [rows_of] in ER.
  assert (exists i, In i (i0 :: is) /\ match i with Some a' => exists a, v = PArr a /\ a' = EnsureContiguousArray a /\ a_ndim a = 1 | None => v = PNone end) as (i & Hi & Hvi).
  { clear -EI Hv. induction EI as [|v0 i l l' H _ IH]; [destruct Hv|]. destruct Hv as [<-|Hv]; [exists i; cbn; auto|]. destruct (IH Hv) as (j & J1 & J2). exists j. cbn. auto. }
  specialize (ET i Hi). specialize (ER i Hi). apply Z.eqb_eq in ER. subst i0. cbn [info_len] in ER. destruct i as [a'|].
  - right. destruct Hvi as (a & -> & -> & H1). exists a. split; [reflexivity|]. split; [exact H1|].
    assert (HL : a_len (EnsureContiguousArray a) = a_len a /\ a_dt (EnsureContiguousArray a) = a_dt a) by (unfold EnsureContiguousArray; destruct (a_flag a); auto).
    destruct HL as [HL1 HL2]. cbn [info_len] in ER. rewrite HL1 in ER. rewrite HL2 in ET. split; [exact ER|].
    unfold type_ok, atop_of in ET. destruct ((0 <=? a_dt a) && (a_dt a <=? 23)) eqn:ED; [|discriminate].
    assert (D : a_dt a = 14 \/ a_dt a = 15 \/ a_dt a = 16 \/ a_dt a = 17 \/ a_dt a = 20 \/ a_dt a = 21 \/ a_dt a = 22 \/ sortable_dtype (a_dt a) \/ a_dt a = 23) by (unfold sortable_dtype; lia).
    repeat (destruct D as [D|D]; [rewrite D in ET; discriminate|]). exact D.
  - left. cbn [info_len] in ER. split; [exact Hvi|]. lia.
Qed.

(** float16 keys are accepted and not sorted: the answer is 0, 1, ..., n-1 whatever the keys are *)
Theorem C68_float16_refuted F start pw lw args kind a n (m : Z -> Z) :
  given_as args [a] -> array_1d n a -> a_dt a = 23 -> 0 <= n < Z.of_nat F ->
  exists p, pn_lexsort F start pw lw args kind NoCut NoIndex = Native (RSort n p) /\
  exists m', exec (allowed true start n pw) p m = Finished tt m' /\ items m' start (start + n) = zrange 0 n.
Proof.
  intros Hk Ha Hd Hn. apply given_args in Hk. cbn [map] in Hk. unfold pn_lexsort. rewrite (accepted F 32 start pw lw args kind NoCut NoIndex [a] n Hk ltac:(discriminate) ltac:(intros b [<-|[]]; auto) I I).
  cbn [map]. cbn [SortIndex_column]. destruct (ensure_shape n a Ha) as (_ & _ & _ & _ & E5 & _). rewrite E5, Hd. cbn [Z.eqb]. eexists. split; [reflexivity|].
  assert (W : wp (allowed true start n pw) (fill_index F start NoCut NoIndex n ;; sort_all F start pw lw (GetKind kind MERGE) NoCut n [if atop_of 23 =? 11 then None else Some (col_of n (values a))])
     (fun _ m' => items m' start (start + n) = zrange 0 n) m).
  { change (if atop_of 23 =? 11 then None else Some (col_of n (values a))) with (@None column). cbn [fill_index sort_all sort_column].
    apply fill_range_ok; [exact (fun _ _ => True)|exact Hn|]. intros m1 H1 _. cbn [bind]. apply wp_ret.
    change (seg m1 start (start + n) = zrange 0 n). pose proof (seg_shift m1 (fun x => x) 0 n start) as G. replace (n - 0) with n in G by lia.
    rewrite G; [unfold seg; apply map_id|]. intros x Hx. replace (x - 0) with x by lia. now apply H1. }
  change (if atop_of 23 =? 11 then None else Some (col_of n (values a))) with (@None column) in W.
  apply wp_exec in W. destruct W as ([] & m' & E & H). exists m'. split; [exact E|exact H].
Qed.
(** two float16 keys 2.0, 1.0: row 1 belongs first *)
Definition half_2_1 : arr := mkArr 23 2 1 2 0 2 true false (fun x => nth (Z.to_nat x) [0; 64; 0; 60] 0).
Example C68_float16_case : array_1d 2 half_2_1 /\ a_dt half_2_1 = 23 /\ key_lt (values half_2_1) 1 0 = true /\ ~ row_before [values half_2_1] 0 1.
Proof.
  split. { unfold array_1d. cbn. repeat split; auto; lia. } split; [reflexivity|]. split; [reflexivity|]. cbn. intros [H|(_ & H & _)]; discriminate.
Qed.

(** byte-swapped keys are accepted and read as if they were native: pn.lexsort([np.array([256, 1], '>u4')]) is [0, 1] *)
Definition swapped_256_1 : arr := mkArr 6 4 1 2 0 4 true true (fun x => nth (Z.to_nat x) [0; 0; 1; 0; 0; 0; 0; 1] 0).
Theorem C68_swapped_refuted : array_1d 2 swapped_256_1 /\ sortable_dtype (a_dt swapped_256_1) /\
  map (fun r => match values swapped_256_1 with KInt v => v r | _ => 0 end) [0; 1] = [256; 1] /\
  exists p, pn_lexsort 50 0 10 (fun _ => 20) [PArr swapped_256_1] None NoCut NoIndex = Native (RSort 2 p) /\
  after (exec (allowed true 0 2 10) p (fun _ => 0)) (fun m' => m' 0 = 0 /\ m' 1 = 1 /\ ~ row_before [values swapped_256_1] (m' 0) (m' 1)).
Proof.
  split. { unfold array_1d. cbn. repeat split; auto; lia. } split; [unfold sortable_dtype; cbn; lia|]. split; [reflexivity|].
  eexists. split; [reflexivity|].
  match goal with |- after ?o _ => remember o as oo eqn:E end.
  assert (H : match oo with Finished _ m => (m 0 =? 0) && (m 1 =? 1) | _ => false end = true) by (rewrite E; vm_compute; reflexivity).
  clear E. destruct oo as [a m'| |]; cbn; try discriminate. apply andb_true_iff in H. destruct H as [H1 H2]. apply Z.eqb_eq in H1, H2. rewrite H1, H2.
  split; [reflexivity|]. split; [reflexivity|]. intros [H|(_ & H & _)]; vm_compute in H; discriminate.
Qed.

(** a 0-d array or None as first key: NULL is dereferenced, for lexsort and whatever follows; no key at all: None is returned *)
Theorem C68_crash_refuted F start pw lw kind :
  (forall a rest, a_ndim a = 0 -> pn_lexsort F start pw lw (PArr a :: rest) kind NoCut NoIndex = Native RCrash) /\
  pn_lexsort F start pw lw [PNone] kind NoCut NoIndex = Native RCrash /\
  pn_lexsort F start pw lw [PList []] kind NoCut NoIndex = Native RNone /\ pn_lexsort F start pw lw [] kind NoCut NoIndex = Native RNone.
Proof.
  split; [|repeat split]. intros a rest H. unfold pn_lexsort, lexsort_c, BuildArrayInfo. cbn [key_args build].
  assert (E : a_ndim (EnsureContiguousArray a) = 0) by (unfold EnsureContiguousArray; destruct (a_flag a); exact H). now rewrite E.
Qed.
(** the form of the documentation, a tuple of keys, always goes to np.lexsort *)
Theorem C68_tuple_goes_to_numpy F start pw lw kind cut idx keys : pn_lexsort F start pw lw [PTuple keys] kind cut idx = NumPy.
Proof. reflexivity. Qed.

(** the hypotheses of C68_lexsort_partial: a strided int32 key and a str key of two characters, in one list *)
Definition key1 : arr := mkArr 5 4 1 3 0 8 false false (fun x => nth (Z.to_nat x) [9;0;0;0; 7;7;7;7; 255;255;255;255; 7;7;7;7; 9;0;0;0] 0).
Definition key2 : arr := mkArr 19 8 1 3 0 8 true false (fun x => nth (Z.to_nat x) [98;0;0;0;97;0;0;0; 98;0;0;0;97;0;0;0; 97;0;0;0;98;0;0;0] 0).
Example C68_case : (forall a, In a [key1; key2] -> array_1d 3 a /\ sortable_dtype (a_dt a) /\ native a /\ key_nonan 3 (values a)) /\
  (exists v, values key1 = KInt v /\ map v [0; 1; 2] = [9; -1; 9]) /\ apart 0 3 10 /\
  exists p, pn_lexsort 50 0 10 (fun _ => 20) [PList [PArr key1; PArr key2]] None NoCut NoIndex = Native (RSort 3 p) /\
    match exec (allowed true 0 3 10) p (fun _ => 0) with Finished _ m' => items m' 0 3 | _ => [] end = [2; 1; 0].
Proof.
  split. { intros a [<-|[<-|[]]]; (split; [unfold array_1d; cbn; repeat split; auto; try lia; discriminate|]); (split; [unfold sortable_dtype; cbn; lia|]); split; reflexivity || exact I. }
  split; [eexists; split; [reflexivity|vm_compute; reflexivity]|]. split; [unfold apart; cbn; lia|]. eexists. split; [reflexivity|]. vm_compute. reflexivity.
Qed.

(** * C69: index= and cutoffs= *)
Section Stable.
  Definition tied_ (ks : list (Z -> Z -> bool)) (a b : Z) : bool := forallb (fun k => eqv k a b) ks.
  Fixpoint before_ (ks : list (Z -> Z -> bool)) (a b : Z) : bool :=
    match ks with [] => false | k :: ks => k a b || (negb (k b a) && before_ ks a b) end.
  (** [ks]: the most significant key first *)
  Definition stable_ ks (inp out : list Z) : Prop :=
    Permutation out inp /\ StronglySorted (fun a b => before_ ks b a = false) out /\ forall x, filter (tied_ ks x) out = filter (tied_ ks x) inp.

  Lemma stable_nil l : stable_ [] l l.
  Proof. split; [apply Permutation_refl|]. split; [|reflexivity]. induction l; constructor; auto. apply Forall_forall. reflexivity. Qed.
  Lemma filter_both {A} (f g : A -> bool) l : filter (fun x => f x && g x) l = filter g (filter f l).
  Proof. induction l as [|x l IH]; cbn; [reflexivity|]. destruct (f x); cbn; [|exact IH]. destruct (g x); now rewrite IH. Qed.
  Lemma filter_comm {A} (f g : A -> bool) l : filter g (filter f l) = filter f (filter g l).
  Proof. rewrite <- !filter_both. apply filter_ext. intros x. apply andb_comm. Qed.
  Lemma stable_step k ks inp l l' : strict_weak k -> stable_ ks inp l -> srel k l l' -> StronglySorted (le k) l' -> stable_ (k :: ks) inp l'.
  Proof.
    intros SW (S1 & S2 & S3) [R1 R2] Hs. split; [eapply Permutation_trans; eauto|]. split.
    - pose proof (srel_refine k (fun a b => before_ ks b a = false) SW l l' S2 (conj R1 R2) Hs) as X.
      clear -X SW. induction X as [|a l' _ IH H]; constructor; [exact IH|]. rewrite Forall_forall in *. intros b Hb. cbn [before_].
      destruct (H b Hb) as [E|(E1 & E2 & E3)].
      + rewrite (sw_asym k SW a b E), E. reflexivity.
      + now rewrite E2, E3, andb_false_r.
    - intros x. cbn [tied_ forallb]. change (forallb (fun k0 => eqv k0 x ?b) ks) with (tied_ ks x b).
      transitivity (filter (tied_ ks x) (filter (eqv k x) l')). { rewrite <- filter_both. reflexivity. }
      rewrite R2, filter_comm, S3, filter_comm, <- filter_both. reflexivity.
  Qed.
End Stable.

Lemma before_keys n ks a b : (forall k, In k ks -> key_wf n k) -> 0 <= a < n -> 0 <= b < n -> before_ (map klt ks) a b = comes_before ks a b.
Proof.
  intros Hk Ha Hb. induction ks as [|k ks IH]; cbn; [reflexivity|]. rewrite !(klt_key n) by (try assumption; apply Hk; now left).
  rewrite IH; [reflexivity|]. intros k' H. apply Hk. now right.
Qed.
Lemma tied_keys n ks a b : (forall k, In k ks -> key_wf n k) -> 0 <= a < n -> 0 <= b < n -> tied_ (map klt (rev ks)) a b = tied ks a b.
Proof.
  intros Hk Ha Hb. unfold tied_, tied. apply eq_true_iff_eq. rewrite !forallb_forall. split; intros H.
  - intros k Hin. rewrite <- !(klt_key n) by (try assumption; now apply Hk). apply (H (klt k)). apply in_map_iff. exists k. split; [reflexivity|]. now apply -> in_rev.
  - intros k Hin. rewrite in_map_iff in Hin. destruct Hin as (k' & <- & Hin). apply in_rev in Hin. specialize (H k' Hin).
    unfold eqv. now rewrite !(klt_key n) by (try assumption; now apply Hk).
Qed.
Lemma stable_keys n keys inp out : (forall k, In k keys -> key_wf n k) -> (forall x, In x inp -> 0 <= x < n) ->
  stable_ (map klt (rev keys)) inp out -> stably_sorted keys inp out.
Proof.
  intros Hk Hin (S1 & S2 & S3). assert (Hout : forall x, In x out -> 0 <= x < n) by (intros x Hx; apply Hin; eapply Permutation_in; eauto).
  split; [exact S1|]. split.
  - clear -S2 Hk Hout. induction S2 as [|a l _ IH H]; constructor; [apply IH; intros; apply Hout; now right|]. rewrite Forall_forall in *. intros b Hb.
    rewrite <- (before_keys n); [now apply H| |apply Hout; now right|apply Hout; now left]. intros k Hin. apply Hk. now apply in_rev.
  - intros x Hx. specialize (S3 x). rewrite (filter_ext_in _ (tied keys x)) in S3 by (intros y Hy; apply (tied_keys n); auto).
    rewrite (filter_ext_in (tied_ _ x) (tied keys x) inp) in S3 by (intros y Hy; apply (tied_keys n); auto). exact S3.
Qed.

Lemma sort_columns_stable rows F start n pw : 0 <= n < 2 ^ 63 -> 2 * n + 1 < Z.of_nat F -> disjoint start n pw (n / 2) ->
  forall keys done inp (m : Z -> Z),
  (forall k, In k keys -> key_wf rows k /\ key_nonan rows k) ->
  (forall x, In x inp -> 0 <= x < rows) -> stable_ (map klt done) inp (seg m start (start + n)) ->
  wp (allowed true start n pw) (sort_columns F MERGE (map (col_of rows) keys) start n pw)
    (fun _ m' => stable_ (map klt (rev keys ++ done)) inp (seg m' start (start + n)) /\
        forall x, allowed true start n pw x = false -> m' x = m x) m.
Proof.
  intros Hn HF Hd. induction keys as [|k keys IH]; intros done inp m Hk Hin Hs; cbn [map sort_columns].
  - apply wp_ret. split; [exact Hs|reflexivity].
  - apply wp_bind. destruct (Hk k (or_introl eq_refl)) as [K1 K2].
    apply (sort_index_col (col_of rows k) (klt k) (row_in rows) F MERGE n (sw_klt k) (col_lt_ok rows k K1) (fun _ => col_raw_ok rows k K1 K2)); try lia; try assumption.
    + intros x Hx. now apply allowed_arr.
    + intros x Hx. now apply allowed_pw.
    + intros x Hx. apply Hin. destruct Hs as [P _]. eapply Permutation_in; [exact P|]. apply seg_In. exists x. auto.
    + intros m1 H1 H2 H3. cbn [rel_of] in H1. eapply wp_conseq.
      * apply (IH (k :: done) inp); [intros k' Hk'; apply Hk; now right|exact Hin|]. cbn [map].
        apply (stable_step _ _ _ (seg m start (start + n))); [apply sw_klt|exact Hs|exact H1|now apply sorted_seg_iff].
      * intros [] m2 (B1 & B2). cbn [rev]. rewrite <- app_assoc. split; [exact B1|]. intros x Hx. rewrite B2 by exact Hx. exact (same_out_allowed _ _ _ _ _ H3 x Hx).
Qed.
Lemma stably_same keys keys' inp out : Forall2 same_key keys keys' -> stably_sorted keys inp out -> stably_sorted keys' inp out.
Proof.
  intros H (S1 & S2 & S3). split; [exact S1|]. split.
  - assert (E : forall a b, comes_before (rev keys') a b = comes_before (rev keys) a b).
    { intros a b. apply Forall2_rev in H. clear -H. induction H as [|k k' ks ks' HK _ IH]; cbn; [reflexivity|]. now rewrite !(same_key_lt k k'), IH by exact HK. }
    clear -S2 E. induction S2 as [|a l _ IH H]; constructor; [exact IH|]. rewrite Forall_forall in *. intros b Hb. rewrite E. now apply H.
  - assert (E : forall a b, tied keys a b = tied keys' a b).
    { intros a b. unfold tied. clear -H. induction H as [|k k' ks ks' HK _ IH]; cbn; [reflexivity|]. now rewrite !(same_key_lt k k'), IH by exact HK. }
    intros x Hx. specialize (S3 x Hx). rewrite !(filter_ext _ _ (E x)) in S3. exact S3.
Qed.

(** index=idx, a contiguous int32 array of row numbers, repeats allowed: the array itself is rearranged, stably *)
Theorem C69_index_partial F start pw lw args kind arrays n len (m : Z -> Z) :
  given_as args arrays -> arrays <> [] ->
  (forall a, In a arrays -> array_1d n a /\ sortable_dtype (a_dt a) /\ native a /\ key_nonan n (values a)) ->
  stable_kind kind -> 0 < len <= n -> len < 2 ^ 63 -> 2 * len + 1 < Z.of_nat F -> disjoint start len pw (len / 2) ->
  (forall x, start <= x < start + len -> 0 <= m x < n) ->
  exists p, pn_lexsort F start pw lw args kind NoCut (Index 32 len) = Native (RSort len p) /\
  exists m', exec (allowed true start len pw) p m = Finished tt m' /\
    stably_sorted (map values arrays) (items m start (start + len)) (items m' start (start + len)) /\
    (forall x, allowed true start len pw x = false -> m' x = m x).
Proof.
  intros Hk Hne Ha Hmode Hl Hl63 HF Hd Hidx. apply given_args in Hk. apply stable_kind_ok in Hmode. unfold pn_lexsort.
  rewrite (accepted F 32 start pw lw args kind NoCut (Index 32 len) arrays n Hk Hne ltac:(intros a Hin; destruct (Ha a Hin) as (H1 & H2 & _); auto) I ltac:(right; split; [lia|reflexivity])).
  replace (0 <? len) with true by lia. rewrite columns_native by (intros a Hin; destruct (Ha a Hin) as (H1 & H2 & H3 & _); auto). rewrite Hmode.
  rewrite <- (map_map (fun a => col_of n (reads (EnsureContiguousArray a))) Some), sort_all_nocut, <- (map_map (fun a => reads (EnsureContiguousArray a)) (col_of n)).
  eexists. split; [reflexivity|]. cbn [fill_index bind].
  set (keys := map (fun a => reads (EnsureContiguousArray a)) arrays).
  assert (HK : forall k, In k keys -> key_wf n k /\ key_nonan n k).
  { intros k Hin. apply in_map_iff in Hin. destruct Hin as (a & <- & Hin). destruct (Ha a Hin) as (H1 & H2 & H3 & H4). split; [apply reads_wf|now apply nonan_copy]. }
  assert (HI : forall x, In x (seg m start (start + len)) -> 0 <= x < n) by (intros x Hx; apply seg_In in Hx; destruct Hx as (i & Hi & <-); now apply Hidx).
  pose proof (sort_columns_stable n F start len pw ltac:(lia) HF Hd keys [] (seg m start (start + len)) m HK HI (stable_nil _)) as W.
  apply wp_exec in W. destruct W as ([] & m' & E & S & R). exists m'. split; [exact E|]. split; [|exact R]. rewrite app_nil_r in S.
  change (items m start (start + len)) with (seg m start (start + len)). change (items m' start (start + len)) with (seg m' start (start + len)).
  apply (stably_same keys); [apply (keys_same n); intros a Hin; destruct (Ha a Hin) as (H1 & H2 & H3 & _); auto|].
  apply (stable_keys n); [intros k Hin; now apply HK|exact HI|exact S].
Qed.

(** ** cutoffs= *)
(** [cut], as the code reads it, of the list given *)
Definition in_order (l : list Z) (n : Z) : Prop := l <> [] /\ 0 <= hd 0 l /\ StronglySorted Z.le l /\ last l 0 = n.
Lemma in_order_ok l n : in_order l n -> cutoffs_ok (cut_fn l) (Z.of_nat (length l)) n.
Proof.
  intros (H1 & H2 & H3 & H4). unfold cutoffs_ok, cut_fn. split; [destruct l; cbn; [congruence|lia]|]. split; [destruct l; cbn in *; lia|]. split.
  - intros t Ht. replace (Z.to_nat t) with (S (Z.to_nat (t - 1))) by lia. assert (Hl : (S (Z.to_nat (t - 1)) < length l)%nat) by lia.
    revert Hl. generalize (Z.to_nat (t - 1)). clear -H3. induction H3 as [|a l S IH H]; intros i Hi; cbn [length] in Hi; [lia|].
    destruct i as [|i]; [|apply IH; lia]. rewrite Forall_forall in H. cbn. apply H. destruct l; cbn in *; [lia|now left].
  - replace (Z.to_nat _) with (length l - 1)%nat by lia. rewrite <- H4. clear. induction l as [|a l IH]; [reflexivity|]. destruct l as [|b l]; [reflexivity|].
    cbn [length Nat.sub nth last] in *. rewrite Nat.sub_0_r in IH. exact IH.
Qed.

Section Cut2.
  Variables (F : nat) (cut : Z -> Z) (start : Z) (lw : Z -> Z) (parts n : Z).
  Hypothesis Hn : 0 <= n < 2 ^ 63.
  Hypothesis HF : 2 * n + 1 < Z.of_nat F.
  Hypothesis HC : cutoffs_ok cut parts n.
  Hypothesis HL : cut_layout cut parts start n lw.
  Notation ps t := (part_start cut t).
  Notation part m t := (seg m (start + ps t) (start + cut t)).

  Lemma mono2 a b : 0 <= a <= b -> b < parts -> cut a <= cut b.
  Proof.
    destruct HC as (_ & _ & HM & _). intros Hab Hb. replace b with (a + (b - a)) in * by lia. assert (Hd : 0 <= b - a) by lia. set (d := b - a) in *. clearbody d. clear b.
    revert Hb. pattern d. apply natlike_ind; [| |exact Hd]; [rewrite Z.add_0_r; lia|]. intros x0 Hx IH H. specialize (IH ltac:(lia)). specialize (HM (a + Z.succ x0) ltac:(lia)).
    replace (a + Z.succ x0 - 1) with (a + x0) in HM by lia. lia.
  Qed.
  Lemma range2 t : 0 <= t < parts -> 0 <= ps t /\ ps t <= cut t <= n.
  Proof.
    intros Hs. pose proof HC as (C1 & C2 & C3 & C4). unfold part_start. pose proof (mono2 t (parts - 1) ltac:(lia) ltac:(lia)). pose proof (mono2 0 t ltac:(lia) ltac:(lia)).
    destruct (Z.eqb_spec t 0) as [->|]; [lia|]. pose proof (mono2 (t - 1) t ltac:(lia) ltac:(lia)). pose proof (mono2 0 (t - 1) ltac:(lia) ltac:(lia)). lia.
  Qed.
  Lemma apart2 t t' x : 0 <= t < parts -> 0 <= t' < parts -> t <> t' -> cok cut start lw t x = true -> cok cut start lw t' x = true -> False.
  Proof.
    intros Ht Ht' Hne. pose proof (range2 t Ht). pose proof (range2 t' Ht'). destruct HL as [L1 L2].
    specialize (L2 t t' Ht Ht' Hne). pose proof (L1 t Ht). pose proof (L1 t' Ht').
    assert (cut t <= ps t' \/ cut t' <= ps t).
    { destruct (Z.lt_ge_cases t t'); [left|right]; unfold part_start; [replace (t' =? 0) with false by lia|replace (t =? 0) with false by lia]; apply mono2; lia. }
    unfold disjoint, cok, inr_ in *. set (q := (cut t - ps t) / 2) in *. set (q' := (cut t' - ps t') / 2) in *. lia.
  Qed.

  (** partition t is 0, 1, ... rearranged stably by the keys done so far, the last the most significant *)
  Definition part_done (done : list key) (t : Z) (m : Z -> Z) : Prop :=
    stable_ (map klt (map (shift_key (ps t)) done)) (zrange 0 (cut t - ps t)) (part m t).

  Lemma leaf2 done k t (m : Z -> Z) : key_wf n k -> key_nonan n k -> 0 <= t < parts -> part_done done t m ->
    wp (cok cut start lw t) (cutoff_leaf F (col_of n k) cut start lw t) (fun _ m' => part_done (k :: done) t m') m.
  Proof.
    intros Hk Hnan Ht Hd. pose proof (range2 t Ht) as Hr. unfold cutoff_leaf.
    assert (Hdl : disjoint (start + ps t) (cut t - ps t) (lw t) ((cut t - ps t) / 2)).
    { destruct HL as [HL1 _]. specialize (HL1 t Ht). unfold disjoint in *. assert (0 <= (cut t - ps t) / 2) by (apply Z.div_pos; lia). lia. }
    assert (SL : forall x y, row_in (cut t - ps t) x -> row_in (cut t - ps t) y -> lt_at (shift_col (ps t) (col_of n k)) x y = Some (klt (shift_key (ps t) k) x y)).
    { intros x y Hx Hy. unfold row_in in *. cbn [shift_col lt_at]. rewrite (col_lt_ok n k Hk) by (unfold row_in; lia). now destruct k. }
    assert (SR : forall x y, row_in (cut t - ps t) x -> row_in (cut t - ps t) y -> rawlt_at (shift_col (ps t) (col_of n k)) x y = Some (klt (shift_key (ps t) k) x y)).
    { intros x y Hx Hy. unfold row_in in *. cbn [shift_col rawlt_at]. rewrite (col_raw_ok n k Hk Hnan) by (unfold row_in; lia). now destruct k. }
    apply (sort_index_col (shift_col (ps t) (col_of n k)) (klt (shift_key (ps t) k)) (row_in (cut t - ps t)) F MERGE n (sw_klt _) SL (fun _ => SR)); try lia; try assumption.
    - intros x Hx. unfold cok, inr_. lia.
    - intros x Hx. unfold cok, inr_. lia.
    - intros x Hx. unfold row_in. apply zrange_In. destruct Hd as [P _]. eapply Permutation_in; [exact P|]. apply seg_In. exists x. split; [lia|reflexivity].
    - replace (start + ps t + (cut t - ps t)) with (start + cut t) by lia. intros m' H1 H2 H3. cbn [rel_of] in H1. unfold part_done. cbn [map].
      apply (stable_step _ _ _ (part m t)); [apply sw_klt|exact Hd|exact H1|now apply sorted_seg_iff].
  Qed.
  Lemma frame2 done t (m1 m2 : Z -> Z) : (forall x, cok cut start lw t x = true -> m2 x = m1 x) -> part_done done t m1 -> part_done done t m2.
  Proof. intros H. unfold part_done. rewrite (seg_ext m2 m1); [auto|]. intros x Hx. apply H. unfold cok, inr_. lia. Qed.

  (** one column in the calling thread *)
  Definition cells (x : Z) : bool := existsb (fun t => cok cut start lw t x) (zrange 0 parts).
  Lemma cells_cok t x : 0 <= t < parts -> cok cut start lw t x = true -> cells x = true.
  Proof. intros Ht Hx. unfold cells. apply existsb_exists. exists t. split; [apply zrange_In; lia|exact Hx]. Qed.
  Lemma column2 done k (m : Z -> Z) : key_wf n k -> key_nonan n k -> (forall t, 0 <= t < parts -> part_done done t m) ->
    wp cells (seq_cutoffs F (col_of n k) cut start lw parts) (fun _ m' => forall t, 0 <= t < parts -> part_done (k :: done) t m') m.
  Proof.
    intros Hk Hnan Hd. pose proof HC as (HP & _). unfold seq_cutoffs, zrange.
    assert (G : forall j t0 m1, t0 + Z.of_nat j = parts -> 0 <= t0 ->
       (forall t, 0 <= t < t0 -> part_done (k :: done) t m1) -> (forall t, t0 <= t < parts -> part_done done t m1) ->
       wp cells (fold_right (fun t p => cutoff_leaf F (col_of n k) cut start lw t ;; p) (Ret tt) (zseq t0 j))
         (fun _ m' => forall t, 0 <= t < parts -> part_done (k :: done) t m') m1).
    { induction j as [|j IH]; intros t0 m1 Hj H0 H1 H2; cbn [zseq fold_right].
      - apply wp_ret. intros t Ht. apply H1. lia.
      - apply wp_bind. assert (Ht0 : 0 <= t0 < parts) by lia. pose proof (leaf2 done k t0 m1 Hk Hnan Ht0 (H2 t0 ltac:(lia))) as W.
        apply wp_keeps in W. apply (wp_weaken _ cells) in W; [|intros x Hx; now apply (cells_cok t0)].
        eapply wp_conseq; [exact W|]. intros [] m2 [W1 W2].
        assert (FR : forall ks t, 0 <= t < parts -> t <> t0 -> part_done ks t m1 -> part_done ks t m2).
        { intros ks t Ht Hne. apply frame2. intros x Hx. apply W2. destruct (cok cut start lw t0 x) eqn:E; [|reflexivity]. exfalso. exact (apart2 t t0 x Ht Ht0 Hne Hx E). }
        apply IH; try lia.
        + intros t Ht. destruct (Z.eq_dec t t0) as [->|Hne]; [exact W1|]. apply FR; [lia|exact Hne|]. apply H1. lia.
        + intros t Ht. apply FR; [lia|lia|]. apply H2. lia. }
    apply G; try lia. intros t Ht. apply Hd. lia.
  Qed.
  Lemma columns2 : forall keys done (m : Z -> Z), (forall k, In k keys -> key_wf n k /\ key_nonan n k) -> (forall t, 0 <= t < parts -> part_done done t m) ->
    wp cells (fold_right (fun k p => seq_cutoffs F (col_of n k) cut start lw parts ;; p) (Ret tt) keys)
      (fun _ m' => forall t, 0 <= t < parts -> part_done (rev keys ++ done) t m') m.
  Proof.
    induction keys as [|k keys IH]; intros done m Hk Hd; cbn [fold_right].
    - apply wp_ret. exact Hd.
    - apply wp_bind. destruct (Hk k (or_introl eq_refl)) as [K1 K2]. eapply wp_conseq; [exact (column2 done k m K1 K2 Hd)|]. intros [] m1 H1.
      cbn [rev]. rewrite <- app_assoc. apply (IH (k :: done)); [intros k' H; apply Hk; now right|exact H1].
  Qed.

  Lemma only_leaves l i : gnode parts 0 l i -> l = 0%nat /\ 0 <= i < parts.
  Proof. intros [H1 H2]. assert (l = 0%nat) by lia. subst l. cbn in H2. lia. Qed.
  (** one column on threads *)
  Lemma column2_threads done k (m : Z -> Z) wakeup zz sched : key_wf n k -> key_nonan n k -> (forall t, 0 <= t < parts -> part_done done t m) -> 0 <= wakeup ->
    let s := par_cutoffs F (col_of n k) cut start lw parts wakeup zz m sched in
    returned s -> (forall t, 0 <= t < parts -> part_done (k :: done) t (pm s)) /\ (forall x, cells x = false -> pm s x = m x).
  Proof.
    intros Hk Hnan Hd Hw s Hret. pose proof HC as (HP & _).
    assert (E : s = prun (cutoff_leaf F (col_of n k) cut start lw) (fun _ _ => Ret tt) 0 (pstart (parts * 2 ^ Z.of_nat 0) wakeup zz m) sched).
    { unfold s, par_cutoffs. cbn [Z.of_nat]. now rewrite Z.pow_0_r, Z.mul_1_r. }
    rewrite E in *.
    destruct (tree_result (cutoff_leaf F (col_of n k) cut start lw) (fun _ _ => Ret tt) parts 0 wakeup zz m (cok_ cut start lw) (fun _ i m' => part_done (k :: done) i m')
        Hw ltac:(lia)) with (sched := sched) (c := 0) as (H1 & H2 & _); try exact Hret.
    - intros i G. apply only_leaves in G. apply leaf2; try tauto. apply Hd. tauto.
    - intros l i m' G. apply only_leaves in G. destruct G; discriminate.
    - intros l i m1 m2 G. apply only_leaves in G. destruct G as [-> G]. apply frame2.
    - intros l i l' i' x G G' U _. apply only_leaves in G, G'. destruct G as [-> G], G' as [-> G']. cbn [cok_]. apply apart2; try assumption.
      intros ->. apply U. split; [lia|]. cbn. now rewrite Z.div_1_r.
    - split; [exact H1|]. intros x Hx. apply H2. intros l i G. apply only_leaves in G. destruct G as [-> G]. cbn [cok_].
      destruct (cok cut start lw i x) eqn:C; [|reflexivity]. rewrite (cells_cok i x G C) in Hx. discriminate.
  Qed.
End Cut2.

(** the fill: 0, 1, ... in every partition *)
Lemma fill_wp F ok pc c (m : Z -> Z) : 0 <= c < Z.of_nat F -> (forall x, pc <= x < pc + c -> ok x = true) ->
  wp ok (fill_range F pc c) (fun _ m' => seg m' pc (pc + c) = zrange 0 c /\ same_out m m' pc (pc + c)) m.
Proof.
  intros Hc Hok. assert (W : wp (allowed false pc c 0) (fill_range F pc c ;; Ret tt) (fun _ m' => seg m' pc (pc + c) = zrange 0 c /\ same_out m m' pc (pc + c)) m).
  { apply fill_range_ok; [exact (fun _ _ => True)|lia|]. intros m1 H1 H2. apply wp_ret. split; [|exact H2].
    pose proof (seg_shift m1 (fun x => x) 0 c pc) as G. replace (c - 0) with c in G by lia.
    rewrite G; [unfold seg; apply map_id|]. intros x Hx. replace (x - 0) with x by lia. now apply H1. }
  apply (wp_weaken _ ok) in W; [|intros x; unfold allowed, inr_; intros H; apply Hok; cbn in H; lia].
  apply wp_bind in W || idtac. revert W. unfold wp.
  assert (G : forall (p : prog Z unit) m, exec ok (bind p (fun _ => Ret tt)) m = exec ok p m).
  { induction p as [[]|x f IH|x v p IH| |]; intros m0; cbn; try reflexivity; destruct (ok x); auto. }
  now rewrite G.
Qed.
Lemma fill_fault F ok pc c (m : Z -> Z) f : 0 <= c < Z.of_nat F -> (exists x, pc <= x < pc + c /\ ok x = false) -> exec ok (fill_range F pc c ;; f) m = @Fault Z unit.
Proof.
  intros Hc (x & Hx & Hbad). unfold fill_range.
  assert (G : forall F i (m : Z -> Z), 0 <= i -> pc + i <= x -> c - i < Z.of_nat F -> exec ok (loop F (fun i => if i <? c then store (pc + i) i ;; Ret (inl (i + 1)) else Ret (inr tt)) i ;; f) m = @Fault Z unit).
  { clear Hc. induction F0 as [|F0 IH]; intros i m0 Hi Hix HF; [lia|]. cbn [loop]. replace (i <? c) with true by lia. cbn. destruct (ok (pc + i)) eqn:E; [|reflexivity].
    apply IH; try lia. assert (pc + i <> x) by congruence. lia. }
  apply G; lia.
Qed.
Lemma exec_skip ok (p f : prog Z unit) (m : Z -> Z) Q : wp ok p Q m -> exists m', exec ok (p ;; f) m = exec ok f m' /\ Q tt m'.
Proof.
  revert m. induction p as [[]|x g IH|x v p IH| |]; intros m; unfold wp; cbn; try tauto.
  - intros H. exists m. auto.
  - destruct (ok x); [|tauto]. apply IH.
  - destruct (ok x); [|tauto]. apply IH.
Qed.
(** cells start + p, ..., start + n - 1 are written, p the end of the partition before *)
Lemma fill_parts_fault F ok start n : n < Z.of_nat F -> forall l p (m : Z -> Z) f, StronglySorted Z.le (p :: l) -> 0 <= p -> last (p :: l) 0 = n ->
  (exists x, start + p <= x < start + n /\ ok x = false) -> exec ok (fill_parts F l (start + p) p ;; f) m = @Fault Z unit.
Proof.
  intros HF. induction l as [|e l IH]; intros p m f Hs Hp Hl Hx.
  - cbn in Hl. destruct Hx as (x & Hx & _). lia.
  - apply StronglySorted_inv in Hs. destruct Hs as [Hs1 Hs2]. apply Forall_inv in Hs2. cbn [fill_parts].
    assert (A : forall (p g h : prog Z unit) (m : Z -> Z), exec ok ((p ;; g) ;; h) m = exec ok (p ;; (g ;; h)) m).
    { clear. induction p as [[]|x g IH|x v p IH| |]; intros; cbn; try reflexivity; destruct (ok x); auto. }
    rewrite A. assert (En : e <= n). { rewrite <- Hl. change (last (p :: e :: l) 0) with (last (e :: l) 0). clear -Hs1. revert e Hs1. induction l as [|b l IH]; intros e H; [cbn; lia|].
      apply StronglySorted_inv in H. destruct H as [H1 H2]. apply Forall_inv in H2. change (last (e :: b :: l) 0) with (last (b :: l) 0). specialize (IH b H1). lia. }
    destruct (forallb ok (zrange (start + p) (start + e))) eqn:E.
    + rewrite forallb_forall in E. assert (Hok : forall x, start + p <= x < start + e -> ok x = true) by (intros x H; apply E, zrange_In; lia).
      destruct (exec_skip ok (fill_range F (start + p) (e - p)) (fill_parts F l (start + p + Z.max 0 (e - p)) e ;; f) m _ (fill_wp F ok (start + p) (e - p) m ltac:(lia) ltac:(intros x H; apply Hok; lia))) as (m' & -> & _).
      replace (start + p + Z.max 0 (e - p)) with (start + e) by lia. apply IH; try assumption; try lia.
      destruct Hx as (x & Hx & Hbad). exists x. split; [|exact Hbad]. assert (~ (x < start + e)) by (intros H; rewrite Hok in Hbad by lia; discriminate). lia.
    + apply fill_fault; [lia|].
      assert (G : exists x, In x (zrange (start + p) (start + e)) /\ ok x = false).
      { clear -E. induction (zrange (start + p) (start + e)) as [|y r IHr]; cbn in E; [discriminate|]. destruct (ok y) eqn:Ey; [|exists y; split; [now left|exact Ey]]. destruct (IHr E) as (x & H1 & H2). exists x. split; [now right|exact H2]. }
      destruct G as (x & Hx' & Hbad). apply zrange_In in Hx'. exists x. split; [lia|exact Hbad].
Qed.
Lemma fill_parts_wp F ok start n : n < Z.of_nat F -> (forall x, start <= x < start + n -> ok x = true) ->
  forall l p (m : Z -> Z), StronglySorted Z.le (p :: l) -> 0 <= p -> last (p :: l) 0 = n ->
  wp ok (fill_parts F l (start + p) p) (fun _ m' =>
     (forall i, (i < length l)%nat -> let b := nth i (p :: l) 0 in let e := nth i l 0 in seg m' (start + b) (start + e) = zrange 0 (e - b)) /\
     same_out m m' (start + p) (start + n)) m.
Proof.
  intros HF Hok. induction l as [|e l IH]; intros p m Hs Hp Hl.
  - apply wp_ret. split; [cbn; lia|intros x _; reflexivity].
  - apply StronglySorted_inv in Hs. destruct Hs as [Hs1 Hs2]. apply Forall_inv in Hs2. cbn [fill_parts]. apply wp_bind.
    assert (En : e <= n). { rewrite <- Hl. change (last (p :: e :: l) 0) with (last (e :: l) 0). clear -Hs1. revert e Hs1. induction l as [|b l IH]; intros e H; [cbn; lia|].
      apply StronglySorted_inv in H. destruct H as [H1 H2]. apply Forall_inv in H2. change (last (e :: b :: l) 0) with (last (b :: l) 0). specialize (IH b H1). lia. }
    eapply wp_conseq; [apply fill_wp; [lia|intros x Hx; apply Hok; lia]|]. intros [] m1 [H1 H2]. replace (start + p + Z.max 0 (e - p)) with (start + e) by lia. replace (start + p + (e - p)) with (start + e) in * by lia.
    eapply wp_conseq; [apply (IH e m1 Hs1 ltac:(lia) Hl)|]. intros [] m2 [H3 H4]. split.
    + intros [|i] Hi; cbn [nth].
      * rewrite <- H1. apply seg_ext. intros x Hx. apply H4. lia.
      * apply (H3 i). cbn in Hi. lia.
    + intros x Hx. rewrite H4 by lia. apply H2. lia.
Qed.

(** cutoffs=l: rows l[t-1] <= r < l[t] are sorted among themselves, as numbers counted from l[t-1], whatever the kind.
    An index array of full length gives its cells; what it held is overwritten. *)
Theorem C69_cutoffs_partial F start pw lw args kind arrays n l idx (m : Z -> Z) :
  given_as args arrays -> arrays <> [] ->
  (forall a, In a arrays -> array_1d n a /\ sortable_dtype (a_dt a) /\ native a /\ key_nonan n (values a)) ->
  in_order l n -> (idx = NoIndex \/ idx = Index 32 n) ->
  0 <= n < 2 ^ 63 -> 2 * n + 1 < Z.of_nat F -> cut_layout (cut_fn l) (Z.of_nat (length l)) start n lw ->
  exists p, pn_lexsort F start pw lw args kind (Cut l) idx = Native (RSort n p) /\
  exists m', exec (fun x => inr_ start (start + n) x || existsb (fun t => inr_ (lw t) (lw t + (nth (Z.to_nat t) l 0 - nth (Z.to_nat t) (0 :: l) 0) / 2) x) (zrange 0 (Z.of_nat (length l)))) p m
       = Finished tt m' /\
    forall i, (i < length l)%nat -> let b := nth i (0 :: l) 0 in let e := nth i l 0 in
      stably_sorted (map (fun a => shift_key b (values a)) arrays) (zrange 0 (e - b)) (items m' (start + b) (start + e)).
Proof.
  intros Hk Hne Ha Hl Hidx Hn HF HLay. apply given_args in Hk. unfold pn_lexsort. pose proof Hl as (L1 & L2 & L3 & L4).
  set (parts := Z.of_nat (length l)) in *.
  rewrite (accepted F 32 start pw lw args kind (Cut l) idx arrays n Hk Hne ltac:(intros a Hin; destruct (Ha a Hin) as (H1 & H2 & _); auto) (conj L1 L4)
     ltac:(destruct Hidx as [->| ->]; [exact I|right; split; [lia|reflexivity]])).
  replace (match idx with Index _ len => if 0 <? len then len else n | _ => n end) with n by (destruct Hidx as [->| ->]; [reflexivity|]; destruct (0 <? n) eqn:E; reflexivity).
  rewrite columns_native by (intros a Hin; destruct (Ha a Hin) as (H1 & H2 & H3 & _); auto).
  eexists. split; [reflexivity|]. cbn [fill_index].
  set (keys := map (fun a => reads (EnsureContiguousArray a)) arrays).
  assert (HK : forall k, In k keys -> key_wf n k /\ key_nonan n k).
  { intros k Hin. apply in_map_iff in Hin. destruct Hin as (a & <- & Hin). destruct (Ha a Hin) as (H1 & H2 & H3 & H4). split; [apply reads_wf|now apply nonan_copy]. }
  set (ok := fun x => _ || _).
  pose proof (in_order_ok l n Hl) as HC. change (Z.of_nat (length l)) with parts in HC.
  assert (PS : forall t, 0 <= t < parts -> part_start (cut_fn l) t = nth (Z.to_nat t) (0 :: l) 0).
  { intros t Ht. unfold part_start, cut_fn. destruct (Z.eqb_spec t 0) as [->|]; [reflexivity|]. replace (Z.to_nat t) with (S (Z.to_nat (t - 1))) by lia. reflexivity. }
  assert (OK : forall x, cells (cut_fn l) start lw parts x = true -> ok x = true).
  { intros x Hx. unfold cells in Hx. apply existsb_exists in Hx. destruct Hx as (t & Ht & Hx). apply zrange_In in Ht. pose proof (range2 F _ _ _ HC t ltac:(lia)) as R.
    unfold cok in Hx. unfold ok. apply orb_true_iff in Hx. apply orb_true_iff. destruct Hx as [Hx|Hx]; [left; unfold inr_ in *; lia|right].
    apply existsb_exists. exists t. split; [apply zrange_In; lia|]. rewrite PS in Hx by lia. exact Hx. }
  assert (SA : sort_all F start pw lw (GetKind kind MERGE) (Cut l) n (map (fun a => Some (col_of n (reads (EnsureContiguousArray a)))) arrays)
               = fold_right (fun k p => seq_cutoffs F (col_of n k) (cut_fn l) start lw parts ;; p) (Ret tt) keys).
  { unfold keys. clear. induction arrays as [|a arrays IH]; cbn; [reflexivity|]. now rewrite IH. }
  rewrite SA.
  assert (W : wp ok (fill_parts F l start 0 ;; fold_right (fun k p => seq_cutoffs F (col_of n k) (cut_fn l) start lw parts ;; p) (Ret tt) keys)
     (fun _ m' => forall t, 0 <= t < parts -> part_done (cut_fn l) start (rev keys ++ []) t m') m).
  { apply wp_bind. replace start with (start + 0) at 1 by lia. eapply wp_conseq.
    - apply (fill_parts_wp F ok start n ltac:(lia)).
      + intros x Hx. unfold ok, inr_. lia.
      + constructor; [exact L3|]. destruct l as [|e l']; [constructor|]. cbn in L2. apply StronglySorted_inv in L3. destruct L3 as [_ L3]. constructor; [lia|]. rewrite Forall_forall in *. intros x Hx. specialize (L3 x Hx). lia.
      + lia.
      + destruct l; [congruence|exact L4].
    - intros [] m1 [H1 _]. apply (wp_weaken (cells (cut_fn l) start lw parts)); [exact OK|].
      apply (columns2 F (cut_fn l) start lw parts n Hn HF HC HLay keys [] m1 HK). intros t Ht. unfold part_done. cbn [map].
      specialize (H1 (Z.to_nat t) ltac:(lia)). cbn beta zeta in H1. rewrite <- PS in H1 by lia. change (nth (Z.to_nat t) l 0) with (cut_fn l t) in H1. rewrite H1. apply stable_nil. }
  apply wp_exec in W. destruct W as ([] & m' & E & H). exists m'. split; [exact E|]. intros i Hi. cbn zeta. set (b := nth i (0 :: l) 0). set (e := nth i l 0). specialize (H (Z.of_nat i) ltac:(lia)). unfold part_done in H.
  rewrite PS in H by lia. unfold cut_fn in H. rewrite Nat2Z.id in H. fold b e in H. rewrite app_nil_r in H.
  change (items m' (start + b) (start + e)) with (seg m' (start + b) (start + e)).
  pose proof (range2 F _ _ _ HC (Z.of_nat i) ltac:(lia)) as R. rewrite PS in R by lia. unfold cut_fn in R. rewrite Nat2Z.id in R. fold b e in R.
  assert (SW : Forall2 same_key (map (shift_key b) keys) (map (fun a => shift_key b (values a)) arrays)).
  { pose proof (keys_same n arrays ltac:(intros a Hin; destruct (Ha a Hin) as (H1 & H2 & H3 & _); auto)) as K. fold keys in K. rewrite <- (map_map values (shift_key b)).
    clear -K. induction K as [|k k' ks ks' HK _ IH]; cbn; constructor; [|exact IH]. intros r. specialize (HK (b + r)). destruct k, k'; cbn in *; auto. }
  apply (stably_same (map (shift_key b) keys)); [exact SW|].
  apply (stable_keys (e - b)).
  - intros k Hin. apply in_map_iff in Hin. destruct Hin as (k' & <- & Hin). destruct (HK k' Hin) as [K1 _]. destruct k' as [v|L v|v]; cbn in *; auto. intros r Hr. apply K1. lia.
  - intros x Hx. apply zrange_In in Hx. lia.
  - rewrite <- map_rev. exact H.
Qed.

(** the same on threads: whatever each column's partitions were given to, once every call returned *)
Theorem C69_cutoffs_threads_partial F start pw lw args kind arrays hows n l (m m' : Z -> Z) :
  given_as args arrays -> arrays <> [] -> length hows = length arrays ->
  (forall a, In a arrays -> array_1d n a /\ sortable_dtype (a_dt a) /\ native a /\ key_nonan n (values a)) ->
  in_order l n -> 0 <= n < 2 ^ 63 -> 2 * n + 1 < Z.of_nat F -> cut_layout (cut_fn l) (Z.of_nat (length l)) start n lw ->
  exists cols, map (fun a => SortIndex_column n (Some (EnsureContiguousArray a))) arrays = map Some cols /\
    pn_lexsort F start pw lw args kind (Cut l) NoIndex = Native (RSort n (fill_parts F l start 0 ;; sort_all F start pw lw (GetKind kind MERGE) (Cut l) n (map Some cols))) /\
    (cut_columns_call F l start lw (combine cols hows) m m' ->
     (forall i, (i < length l)%nat -> let b := nth i (0 :: l) 0 in let e := nth i l 0 in items m (start + b) (start + e) = zrange 0 (e - b)) ->
     forall i, (i < length l)%nat -> let b := nth i (0 :: l) 0 in let e := nth i l 0 in
       stably_sorted (map (fun a => shift_key b (values a)) arrays) (zrange 0 (e - b)) (items m' (start + b) (start + e))).
Proof.
  intros Hk Hne HLen Ha Hl Hn HF HLay. apply given_args in Hk. unfold pn_lexsort. pose proof Hl as (L1 & L2 & L3 & L4). set (parts := Z.of_nat (length l)) in *.
  set (keys := map (fun a => reads (EnsureContiguousArray a)) arrays). exists (map (col_of n) keys).
  rewrite (accepted F 32 start pw lw args kind (Cut l) NoIndex arrays n Hk Hne ltac:(intros a Hin; destruct (Ha a Hin) as (H1 & H2 & _); auto) (conj L1 L4) I).
  rewrite columns_native by (intros a Hin; destruct (Ha a Hin) as (H1 & H2 & H3 & _); auto).
  assert (EC : map Some (map (col_of n) keys) = map (fun a => Some (col_of n (reads (EnsureContiguousArray a)))) arrays) by (unfold keys; now rewrite !map_map).
  rewrite EC. split; [reflexivity|]. split; [reflexivity|]. intros HCall Hfill.
  assert (HK : forall k, In k keys -> key_wf n k /\ key_nonan n k).
  { intros k Hin. apply in_map_iff in Hin. destruct Hin as (a & <- & Hin). destruct (Ha a Hin) as (H1 & H2 & H3 & H4). split; [apply reads_wf|now apply nonan_copy]. }
  pose proof (in_order_ok l n Hl) as HC. change (Z.of_nat (length l)) with parts in HC.
  assert (PS : forall t, 0 <= t < parts -> part_start (cut_fn l) t = nth (Z.to_nat t) (0 :: l) 0).
  { intros t Ht. unfold part_start, cut_fn. destruct (Z.eqb_spec t 0) as [->|]; [reflexivity|]. replace (Z.to_nat t) with (S (Z.to_nat (t - 1))) by lia. reflexivity. }
  assert (G : forall ks hs done (m0 : Z -> Z), length hs = length ks -> (forall k, In k ks -> key_wf n k /\ key_nonan n k) ->
      (forall t, 0 <= t < parts -> part_done (cut_fn l) start done t m0) -> cut_columns_call F l start lw (combine (map (col_of n) ks) hs) m0 m' ->
      forall t, 0 <= t < parts -> part_done (cut_fn l) start (rev ks ++ done) t m').
  { induction ks as [|k ks IH]; intros hs done m0 HLn HKs Hd Hc; cbn [map combine cut_columns_call] in Hc.
    - subst m'. exact Hd.
    - destruct hs as [|h hs]; [discriminate|]. cbn [combine cut_columns_call] in Hc. destruct Hc as (m1 & Hc1 & Hc2). destruct (HKs k (or_introl eq_refl)) as [K1 K2].
      cbn [rev]. rewrite <- app_assoc. apply (IH hs (k :: done) m1); [cbn in HLn; lia|intros k' H; apply HKs; now right| |exact Hc2].
      destruct h as [|T zz sched].
      + pose proof (column2 F (cut_fn l) start lw parts n Hn HF HC HLay done k m0 K1 K2 Hd) as W. apply wp_exec in W. destruct W as ([] & m2 & E & W).
        apply exec_weaken in E. change (Z.of_nat (length l)) with parts in Hc1. rewrite E in Hc1. injection Hc1 as <-. exact W.
      + destruct Hc1 as (HT & HR & ->). exact (proj1 (column2_threads F (cut_fn l) start lw parts n Hn HF HC HLay done k m0 T zz sched K1 K2 Hd HT HR)). }
  intros i Hi. cbn zeta. set (b := nth i (0 :: l) 0). set (e := nth i l 0).
  assert (H : part_done (cut_fn l) start (rev keys ++ []) (Z.of_nat i) m').
  { apply (G keys hows [] m); [unfold keys; now rewrite map_length|exact HK| |exact HCall|lia]. intros t Ht. unfold part_done. cbn [map].
    specialize (Hfill (Z.to_nat t) ltac:(lia)). cbn zeta in Hfill. rewrite <- PS in Hfill by lia. change (nth (Z.to_nat t) l 0) with (cut_fn l t) in Hfill.
    change (seg m (start + part_start (cut_fn l) t) (start + cut_fn l t)) with (items m (start + part_start (cut_fn l) t) (start + cut_fn l t)). rewrite Hfill. apply stable_nil. }
  unfold part_done in H. rewrite PS in H by lia. unfold cut_fn in H. rewrite Nat2Z.id in H. fold b e in H. rewrite app_nil_r in H.
  change (items m' (start + b) (start + e)) with (seg m' (start + b) (start + e)).
  pose proof (range2 F _ _ _ HC (Z.of_nat i) ltac:(lia)) as R. rewrite PS in R by lia. unfold cut_fn in R. rewrite Nat2Z.id in R. fold b e in R.
  assert (SW : Forall2 same_key (map (shift_key b) keys) (map (fun a => shift_key b (values a)) arrays)).
  { pose proof (keys_same n arrays ltac:(intros a Hin; destruct (Ha a Hin) as (H1 & H2 & H3 & _); auto)) as K. fold keys in K. rewrite <- (map_map values (shift_key b)).
    clear -K. induction K as [|k k' ks ks' HK _ IH]; cbn; constructor; [|exact IH]. intros r. specialize (HK (b + r)). destruct k, k'; cbn in *; auto. }
  apply (stably_same (map (shift_key b) keys)); [exact SW|].
  apply (stable_keys (e - b)).
  - intros k Hin. apply in_map_iff in Hin. destruct Hin as (k' & <- & Hin). destruct (HK k' Hin) as [K1 _]. destruct k' as [v|L v|v]; cbn in *; auto. intros r Hr. apply K1. lia.
  - intros x Hx. apply zrange_In in Hx. lia.
  - rewrite <- map_rev. exact H.
Qed.

(** what does not fit is left to np.lexsort: an index array longer than the keys, of int64 or no array at all, cutoffs that do not end with the
    number of rows or are not int64 *)
Theorem C69_unfit_refused F start pw lw args kind arrays n cut idx :
  given_as args arrays -> arrays <> [] -> (forall a, In a arrays -> array_1d n a /\ sortable_dtype (a_dt a)) -> 0 <= n ->
  match cut with NoCut => True | BadCut => True | Cut l => l <> [] end ->
  (exists b len, idx = Index b len /\ (n < len \/ (0 < len /\ b <> 32))) \/ idx = BadIndex \/ cut = BadCut \/ (exists l, cut = Cut l /\ last l 0 <> n) ->
  pn_lexsort F start pw lw args kind cut idx = NumPy.
Proof.
  intros Hk Hne Ha Hn Hcut H. apply given_args in Hk. unfold pn_lexsort, lexsort_c. rewrite Hk, (bai_arrays n) by (intros a Hin; now apply Ha).
  destruct arrays as [|a0 arrays]; [congruence|]. cbn [map]. destruct (ensure_shape n a0 (proj1 (Ha a0 (or_introl eq_refl)))) as (_ & EL & _). cbn [info_len]. rewrite EL.
  destruct (negb (forallb _ _)); cbn match.
  { destruct cut as [| |[|c l]]; [reflexivity|reflexivity|exfalso; now apply Hcut|]. destruct (negb _); reflexivity. }
  destruct cut as [| |[|c l]]; [|reflexivity|exfalso; now apply Hcut|].
  - destruct H as [(b & len & -> & H)|[->|[H|(l & H & _)]]]; try discriminate; [|reflexivity].
    replace (0 <? len) with true by lia. replace ((n <? len) || negb (b =? 32)) with true by lia. reflexivity.
  - destruct (last (c :: l) 0 =? n) eqn:E; cbn [negb]; [|reflexivity]. destruct H as [(b & len & -> & H)|[->|[H|(l' & [= <-] & H)]]]; try discriminate; [|reflexivity|lia].
    replace (0 <? len) with true by lia. replace ((n <? len) || negb (b =? 32)) with true by lia. reflexivity.
Qed.

(** ** what goes wrong *)
(** index= shorter than the keys together with cutoffs=: the fill writes behind the index array, whatever the cutoffs and workspaces *)
Theorem C69_index_and_cutoffs_refuted F start pw lw args kind arrays n len l ok (m : Z -> Z) :
  given_as args arrays -> arrays <> [] -> (forall a, In a arrays -> array_1d n a /\ sortable_dtype (a_dt a)) ->
  in_order l n -> n < Z.of_nat F -> 0 < len < n -> ok (start + len) = false ->
  exists p, pn_lexsort F start pw lw args kind (Cut l) (Index 32 len) = Native (RSort len p) /\ exec ok p m = Fault.
Proof.
  intros Hk Hne Ha Hl HF Hlen Hok. apply given_args in Hk. unfold pn_lexsort. pose proof Hl as (L1 & L2 & L3 & L4).
  rewrite (accepted F 32 start pw lw args kind (Cut l) (Index 32 len) arrays n Hk Hne ltac:(intros a Hin; destruct (Ha a Hin) as (H1 & H2); auto) (conj L1 L4) ltac:(right; split; [lia|reflexivity])).
  replace (0 <? len) with true by lia. eexists. split; [reflexivity|]. cbn [fill_index]. replace start with (start + 0) at 1 by lia.
  apply (fill_parts_fault F ok start n HF).
  - constructor; [exact L3|]. destruct l as [|e l']; [constructor|]. cbn in L2. apply StronglySorted_inv in L3. destruct L3 as [_ L3]. constructor; [lia|]. rewrite Forall_forall in *. intros x Hx. specialize (L3 x Hx). lia.
  - lia.
  - destruct l; [congruence|exact L4].
  - exists (start + len). split; [lia|exact Hok].
Qed.
(** cutoffs that are not in order: the first end lies behind the last row, only the last one is checked *)
Theorem C69_disordered_cutoffs_refuted F start pw lw args kind arrays n c l ok (m : Z -> Z) :
  given_as args arrays -> arrays <> [] -> (forall a, In a arrays -> array_1d n a /\ sortable_dtype (a_dt a)) ->
  l <> [] -> last l 0 = n -> 0 <= n < c -> c < Z.of_nat F -> ok (start + n) = false ->
  exists p, pn_lexsort F start pw lw args kind (Cut (c :: l)) NoIndex = Native (RSort n p) /\ exec ok p m = Fault.
Proof.
  intros Hk Hne Ha Hl HL Hc HF Hok. apply given_args in Hk. unfold pn_lexsort.
  rewrite (accepted F 32 start pw lw args kind (Cut (c :: l)) NoIndex arrays n Hk Hne ltac:(intros a Hin; destruct (Ha a Hin) as (H1 & H2); auto)
     ltac:(split; [discriminate|destruct l; [congruence|exact HL]]) I).
  eexists. split; [reflexivity|]. cbn [fill_index fill_parts].
  assert (A : forall (p g h : prog Z unit) (m : Z -> Z), exec ok ((p ;; g) ;; h) m = exec ok (p ;; (g ;; h)) m).
  { clear. induction p as [[]|x g IH|x v p IH| |]; intros; cbn; try reflexivity; destruct (ok x); auto. }
  rewrite A. apply fill_fault; [lia|]. exists (start + n). split; [lia|exact Hok].
Qed.
(** cutoffs=np.array([], int64): cutoffs[-1] is read *)
Theorem C69_empty_cutoffs_refuted F start pw lw args kind idx arrays n :
  given_as args arrays -> arrays <> [] -> (forall a, In a arrays -> array_1d n a) -> pn_lexsort F start pw lw args kind (Cut []) idx = Native RCrash.
Proof. intros Hk Hne Ha. apply given_args in Hk. unfold pn_lexsort, lexsort_c. rewrite Hk, (bai_arrays n) by exact Ha. destruct arrays; [congruence|reflexivity]. Qed.
(** index=np.array([], int32): the result is new memory that nothing filled; if what it holds happens to be row numbers, they are
    sorted and returned, whether or not they are all the rows (calloc'd memory: every row number is 0) *)
Theorem C69_empty_index_refuted F start pw lw args kind arrays n (m : Z -> Z) :
  given_as args arrays -> arrays <> [] ->
  (forall a, In a arrays -> array_1d n a /\ sortable_dtype (a_dt a) /\ native a /\ key_nonan n (values a)) ->
  stable_kind kind -> 0 < n < 2 ^ 63 -> 2 * n + 1 < Z.of_nat F -> disjoint start n pw (n / 2) ->
  (forall x, start <= x < start + n -> 0 <= m x < n) ->
  exists p, pn_lexsort F start pw lw args kind NoCut (Index 32 0) = Native (RSort n p) /\
  exists m', exec (allowed true start n pw) p m = Finished tt m' /\
    Permutation (items m' start (start + n)) (items m start (start + n)) /\
    ((forall x, start <= x < start + n -> m x = 0) -> forall x, start <= x < start + n -> m' x = 0).
Proof.
  intros Hk Hne Ha Hmode Hn HF Hd Hidx. apply given_args in Hk. apply stable_kind_ok in Hmode. unfold pn_lexsort.
  rewrite (accepted F 32 start pw lw args kind NoCut (Index 32 0) arrays n Hk Hne ltac:(intros a Hin; destruct (Ha a Hin) as (H1 & H2 & _); auto) I ltac:(left; lia)).
  change (0 <? 0) with false. cbn match. rewrite columns_native by (intros a Hin; destruct (Ha a Hin) as (H1 & H2 & H3 & _); auto). rewrite Hmode.
  rewrite <- (map_map (fun a => col_of n (reads (EnsureContiguousArray a))) Some), sort_all_nocut, <- (map_map (fun a => reads (EnsureContiguousArray a)) (col_of n)).
  eexists. split; [reflexivity|]. cbn [fill_index bind].
  set (keys := map (fun a => reads (EnsureContiguousArray a)) arrays).
  assert (HK : forall k, In k keys -> key_wf n k /\ key_nonan n k).
  { intros k Hin. apply in_map_iff in Hin. destruct Hin as (a & <- & Hin). destruct (Ha a Hin) as (H1 & H2 & H3 & H4). split; [apply reads_wf|now apply nonan_copy]. }
  assert (HI : forall x, In x (seg m start (start + n)) -> 0 <= x < n) by (intros x Hx; apply seg_In in Hx; destruct Hx as (i & Hi & <-); now apply Hidx).
  pose proof (sort_columns_stable n F start n pw ltac:(lia) HF Hd keys [] (seg m start (start + n)) m HK HI (stable_nil _)) as W.
  apply wp_exec in W. destruct W as ([] & m' & E & (S & _) & R). exists m'. split; [exact E|]. split; [exact S|].
  intros H0 x Hx. assert (HX : In (m' x) (seg m start (start + n))). { eapply Permutation_in; [exact S|]. apply seg_In. exists x. auto. }
  apply seg_In in HX. destruct HX as (i & Hi & <-). now apply H0.
Qed.
(** a row number out of range, or uninitialised memory that holds one: a key outside the key array is read *)
Definition three : arr := mkArr 5 4 1 3 0 4 true false (fun x => nth (Z.to_nat x) [9;0;0;0; 255;255;255;255; 9;0;0;0] 0).
Theorem C69_index_out_of_range_refuted :
  exists p, pn_lexsort 50 0 10 (fun _ => 20) [PArr three] None NoCut (Index 32 2) = Native (RSort 2 p) /\
    exec (allowed true 0 2 10) p (fun x => if x =? 0 then 1 else 3) = Fault.
Proof. eexists. split; [reflexivity|]. vm_compute. reflexivity. Qed.

(** index=[2, 0, 2] on keys 9, -1, 9 and cutoffs=[2, 3]: the hypotheses hold, and what comes out *)
Example C69_case : array_1d 3 three /\ sortable_dtype (a_dt three) /\ native three /\ in_order [2; 3] 3 /\
  cut_layout (cut_fn [2; 3]) 2 0 3 (fun t => 20 + 10 * t) /\ disjoint 0 3 10 (3 / 2) /\
  (exists p, pn_lexsort 50 0 10 (fun _ => 20) [PArr three] None NoCut (Index 32 3) = Native (RSort 3 p) /\
    match exec (allowed true 0 3 10) p (fun x => nth (Z.to_nat x) [2; 1; 2] 0) with Finished _ m' => items m' 0 3 | _ => [] end = [1; 2; 2]) /\
  (exists p, pn_lexsort 50 0 10 (fun t => 20 + 10 * t) [PArr three] None (Cut [2; 3]) NoIndex = Native (RSort 3 p) /\
    match exec (fun _ => true) p (fun _ => 77) with Finished _ m' => items m' 0 3 | _ => [] end = [1; 0; 0]).
Proof.
  split. { unfold array_1d. cbn. repeat split; auto; lia. } split; [unfold sortable_dtype; cbn; lia|]. split; [reflexivity|].
  split. { unfold in_order. split; [discriminate|]. split; [cbn; lia|]. split; [|reflexivity]. repeat constructor; lia. }
  split. { split; intros; assert (t = 0 \/ t = 1) as [-> | ->] by lia; unfold disjoint; first [left; vm_compute; congruence | right; vm_compute; congruence | assert (t' = 0 \/ t' = 1) as [-> | ->] by lia; first [lia | left; vm_compute; congruence | right; vm_compute; congruence]]. }
  split; [unfold disjoint; cbn; lia|]. split; (eexists; split; [reflexivity|]); vm_compute; reflexivity.
Qed.

Print Assumptions C68_lexsort_partial.
Print Assumptions C68_lexsort_threads_partial.
Print Assumptions C68_only_suitable_keys.
Print Assumptions C68_float16_refuted.
Print Assumptions C68_swapped_refuted.
Print Assumptions C68_crash_refuted.
Print Assumptions C68_tuple_goes_to_numpy.
Print Assumptions C69_index_partial.
Print Assumptions C69_cutoffs_partial.
Print Assumptions C69_cutoffs_threads_partial.
Print Assumptions C69_unfit_refused.
Print Assumptions C69_index_and_cutoffs_refuted.
Print Assumptions C69_disordered_cutoffs_refuted.
Print Assumptions C69_empty_cutoffs_refuted.
Print Assumptions C69_empty_index_refuted.
Print Assumptions C69_index_out_of_range_refuted.
