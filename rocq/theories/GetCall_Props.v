(** GetCall_Props.v - C74: a[mask] after hook_enable(); C75: pn.getitem(values, index, default). *)
From Coq Require Import SpecFloat.
From Verif Require Import Base Threads_Model Threads_Proofs Jobs_Model Jobs_Proofs Jobs_Call_Proofs Kernel_Model Kernel_Proofs Kernel_Props
  Float_Model Compare_Model Compare_Proofs Compare_Props Unary_Model Unary_Proofs Unary_Props UnaryVal_Props Round_Model Round_Props Arith_Model Arith_Props
  Layout_Model Layout_Props Mask_Model Mask_Props GetItem_Model GetItem_Props LexCall_Model GetCall_Model.

(** ======== specification ======== *)
(** a one-dimensional array of n elements, s bytes apart *)
Definition vector (a : nda) (n s : Z) : Prop := d_dims a = [n] /\ d_str a = [s] /\ 0 <= n.
(** the bytes of an element at a distance of x bytes, the least significant first *)
Definition element (a : nda) (x : Z) : list Z :=
  let l := map (fun b => d_mem a (d_off a + x + b)) (zrange 0 (d_item a)) in if d_swap a then rev l else l.
(** [r] is the vector of those elements of the vector [v] where the vector of bools [i] is true, in order, with v's dtype *)
Definition selected (v i : nda) (n sv si : Z) (r : nda) : Prop :=
  exists S, picks n (fun x => d_mem i (d_off i + x)) si S /\
    vector r (Z.of_nat (length S)) (d_item v) /\ d_dt r = d_dt v /\ d_item r = d_item v /\ d_extra r = d_extra v /\
    forall j k, nth_error S j = Some k -> element r (Z.of_nat j * d_item v) = element v (k * sv).

(** ======== lemmas ======== *)
Lemma item_addr k j b : 0 < k -> 0 <= b < k -> k * ((0 + j * k + b) / k) = 0 + j * k /\ (0 + j * k + b) mod k = b.
Proof.
  intros Hk Hb. replace (0 + j * k + b) with (b + j * k) by ring. rewrite Z.div_add, Z.mod_add, Z.div_small, Z.mod_small by lia. split; ring.
Qed.
Lemma vector_length a n s : vector a n s -> array_length (lay a) = n.
Proof. intros (E & _ & _). unfold array_length, lay. cbn [dims]. rewrite E. cbn [fold_left]. apply Z.mul_1_l. Qed.
Lemma vector_checks v i n sv si : vector v n sv -> vector i n si -> d_dt i = 0 -> mask_checks v i = true.
Proof.
  intros Hv Hi E. unfold mask_checks, ndim. rewrite (vector_length _ _ _ Hv), (vector_length _ _ _ Hi), E.
  destruct Hv as (-> & _ & _), Hi as (-> & _ & _). cbn [length]. rewrite !(Z.eqb_refl n). reflexivity.
Qed.

(** the mask path on two vectors: the raw bytes of the selected elements, whatever the dtype *)
Lemma mask_vectors v i n sv si junk h1 h2 a : vector v n sv -> vector i n si -> d_dt i = 0 -> (forall x, 0 <= d_mem i x < 256) -> 0 < d_item v ->
  (d_item v = 1 \/ d_item v = 2 \/ d_item v = 4 \/ d_item v = 8) \/ si <> 1 \/ sv = d_item v ->
  is_threaded h1 = true \/ is_threaded h2 = false ->
  mask_call v i junk h1 h2 a ->
  exists S mem, picks n (fun x => d_mem i (d_off i + x)) si S /\ a = Gives (like_resize v (Z.of_nat (length S)) mem) /\
    forall j k b, nth_error S j = Some k -> 0 <= b < d_item v -> mem (0 + Z.of_nat j * d_item v + b) = d_mem v (d_off v + k * sv + b).
Proof.
  intros Hv Hi Ed Hm Hit Hc Hh. unfold mask_call. rewrite (vector_checks v i n sv si Hv Hi Ed), (vector_length i n si Hi).
  pose proof (vector_length _ _ _ Hv) as Lv. destruct Hv as (Dv & Sv & Hn), Hi as (Di & Si & _). rewrite Si, Sv. cbn [hd].
  intros (m0 & m' & total & B & ->).
  assert (R : mask_result n (fun x => d_mem i (d_off i + x)) si (fun x b => d_mem v (x + b)) (d_off v) sv 0 (d_item v) m0 m' total).
  { destruct Hc as [Hc|Hc]; [eapply C20_mask_getitem_partial|eapply C21_mask_getitem_partial]; try eassumption; intros x; apply Hm. }
  destruct R as (S & P & -> & A & _). exists S. eexists. split; [exact P|]. split; [reflexivity|].
  intros j k b Hj Hb. cbv beta. destruct (item_addr (d_item v) (Z.of_nat j) b Hit Hb) as [-> ->]. now rewrite (A j k Hj).
Qed.

(** ======== C74 ======== *)
(** One-dimensional arrays: whatever NumPy's own answer would be ([numpy] is arbitrary), a[mask] is right for native byte order and a
    dtype that is its number, for every length, mask, stride and schedule, with the restrictions of C20 and C21. *)
Theorem C74_mask_partial : forall v i n sv si numpy r a,
  vector v n sv -> vector i n si -> d_dt i = 0 -> (forall x, 0 <= d_mem i x < 256) -> 0 < d_item v ->
  d_swap v = false -> d_extra v = false ->
  (d_item v = 1 \/ d_item v = 2 \/ d_item v = 4 \/ d_item v = 8) \/ si <> 1 \/ sv = d_item v ->
  is_threaded (r1 r) = true \/ is_threaded (r2 r) = false ->
  hooked_index v (OArr i) numpy r a -> exists res, a = Gives res /\ selected v i n sv si res.
Proof.
  intros v i n sv si numpy r a Hv Hi Ed Hm Hit Hsw Hex Hc Hh H. unfold hooked_index in H. rewrite Ed in H. cbn [Z.eqb] in H. destruct H as (x & Hx & Ha).
  destruct (mask_vectors v i n sv si _ _ _ _ Hv Hi Ed Hm Hit Hc Hh Hx) as (S & mem & P & -> & A). subst a. eexists. split; [reflexivity|].
  exists S. split; [exact P|]. split; [split; [reflexivity|split; [reflexivity|lia]]|]. repeat (split; [first [reflexivity|exact Hex|symmetry; exact Hex]|]).
  intros j k Hj. unfold element, like_resize. cbn [d_item d_swap d_mem d_off]. rewrite Hsw. apply map_ext_in. intros b Hb. apply zrange_In in Hb. now apply A.
Qed.
Print Assumptions C74_mask_partial.

(** every other index is NumPy's: lists, slices, numbers, index arrays of any other dtype, and masks that do not fit the array *)
Theorem C74_other_indices : forall v idx numpy r a,
  (forall i, idx = OArr i -> d_dt i = 0 -> array_length (lay i) <> array_length (lay v)) ->
  (hooked_index v idx numpy r a <-> numpy a).
Proof.
  intros v idx numpy r a H. unfold hooked_index. destruct idx; try tauto. destruct (Z.eqb_spec (d_dt a0) 0) as [E|E].
  - assert (C : mask_checks v a0 = false).
    { unfold mask_checks. replace (array_length (lay a0) =? array_length (lay v)) with false by (symmetry; apply Z.eqb_neq; now apply H). apply andb_false_r. }
    unfold mask_call. rewrite C. split; [intros (x & -> & Hx); exact Hx|intros Hx; exists Refused; auto].
  - destruct (d_dt a0 <=? 13); [|tauto]. unfold getitem_call. cbn [parse]. split; [intros (x & -> & Hx); exact Hx|intros Hx; exists Refused; auto].
Qed.
Print Assumptions C74_other_indices.

(** False for every byte-swapped array: the result gets the selected elements' bytes unswapped under a native dtype, so each comes out with
    its bytes reversed. *)
Theorem C74_byteswapped_refuted : forall v i n sv si numpy r a,
  vector v n sv -> vector i n si -> d_dt i = 0 -> (forall x, 0 <= d_mem i x < 256) -> 0 < d_item v -> d_swap v = true ->
  (d_item v = 1 \/ d_item v = 2 \/ d_item v = 4 \/ d_item v = 8) \/ si <> 1 \/ sv = d_item v ->
  is_threaded (r1 r) = true \/ is_threaded (r2 r) = false ->
  hooked_index v (OArr i) numpy r a ->
  exists res S, a = Gives res /\ d_swap res = false /\ picks n (fun x => d_mem i (d_off i + x)) si S /\
    forall j k, nth_error S j = Some k -> element res (Z.of_nat j * d_item v) = rev (element v (k * sv)).
Proof.
  intros v i n sv si numpy r a Hv Hi Ed Hm Hit Hsw Hc Hh H. unfold hooked_index in H. rewrite Ed in H. cbn [Z.eqb] in H. destruct H as (x & Hx & Ha).
  destruct (mask_vectors v i n sv si _ _ _ _ Hv Hi Ed Hm Hit Hc Hh Hx) as (S & mem & P & -> & A). subst a. eexists. exists S. split; [reflexivity|]. split; [reflexivity|].
  split; [exact P|]. intros j k Hj. unfold element, like_resize. cbn [d_item d_swap d_mem d_off]. rewrite Hsw, rev_involutive. apply map_ext_in. intros b Hb. apply zrange_In in Hb. now apply A.
Qed.
Print Assumptions C74_byteswapped_refuted.

(** Whatever the shapes, the answer is one-dimensional with nothing of the dtype but its number: a structured array loses its fields, a
    datetime array its unit, and an array of shape (n,1) indexed by n bools, for which NumPy gives shape (count,1), its second dimension. *)
Theorem C74_dtype_and_shape_refuted : forall v i numpy r res, d_dt i = 0 -> ~ numpy (Gives res) ->
  hooked_index v (OArr i) numpy r (Gives res) -> d_extra res = false /\ length (d_dims res) = 1%nat.
Proof.
  intros v i numpy r res Ed Hn H. unfold hooked_index in H. rewrite Ed in H. cbn [Z.eqb] in H. destruct H as (x & Hx & Ha).
  unfold mask_call in Hx. destruct (mask_checks v i); [|subst x; contradiction]. destruct (d_str i) as [|sB ss]; [subst x; discriminate|].
  destruct Hx as (m0 & m' & total & _ & ->). destruct (d_str v); [destruct (total >? 0); [discriminate|]|]; injection Ha as ->; split; reflexivity.
Qed.
Print Assumptions C74_dtype_and_shape_refuted.

(** a 2 by 2 array indexed by a mask of its own shape, all true: two elements instead of four (C21), and memory behind the mask decides which *)
Definition square (dt item : Z) (mem : Z -> Z) : nda := mkND dt item false false [2; 2] [2 * item; item] 0 mem.
Theorem C74_two_dimensional_refuted : forall numpy junk, exists res,
  hooked_index (square 7 8 (fun x => x)) (OArr (square 0 1 (fun x => if (0 <=? x) && (x <? 4) then 1 else 0))) numpy (mkRun Alone Alone junk junk junk) (Gives res) /\
  d_dims res = [2].
Proof.
  intros numpy junk. eexists. split; [|shelve]. unfold hooked_index. cbn [d_dt square Z.eqb r1 r2 r_junk]. eexists. split.
  - unfold mask_call. change (mask_checks _ _) with true. cbn [d_str square]. cbv iota.
    eexists (fun _ _ => 0). eexists. exists 2. split; [|reflexivity].
    eexists. split; [reflexivity|]. cbv zeta. split; reflexivity.
  - cbv iota beta. reflexivity.
  Unshelve. reflexivity.
Qed.
Print Assumptions C74_two_dimensional_refuted.

(** a 0-d array indexed by a 0-d mask, for which NumPy answers, is a NULL dereference, whatever they hold *)
Theorem C74_zero_dimensional_refuted : forall v i numpy r a, d_dims v = [] -> d_dims i = [] -> d_str i = [] -> d_dt i = 0 ->
  hooked_index v (OArr i) numpy r a -> a = Crash.
Proof.
  intros v i numpy r a Dv Di Si Ed H. unfold hooked_index in H. rewrite Ed in H. cbn [Z.eqb] in H. destruct H as (x & Hx & Ha).
  assert (C : mask_checks v i = true). { unfold mask_checks, is_c_contiguous, ndim, array_length, lay. cbn [dims strides itemsize]. rewrite Ed, Dv, Di. reflexivity. }
  unfold mask_call in Hx. rewrite C, Si in Hx. subst x. exact Ha.
Qed.
Print Assumptions C74_zero_dimensional_refuted.

(** the hypotheses are met: int64 [10, 11, ..., 19][mask of every third] *)
Example C74_nonvacuous : let v := mkND 7 8 false false [10] [8] 0 (fun x => if x mod 8 =? 0 then 10 + x / 8 else 0) in
  let i := mkND 0 1 false false [10] [1] 0 (fun x => if x mod 3 =? 0 then 1 else 0) in
  vector v 10 8 /\ vector i 10 1 /\ exists res, hooked_index v (OArr i) (fun _ => False) (mkRun Alone Alone (fun _ => 0) (fun _ => 0) (fun _ => 0)) (Gives res) /\
    d_dims res = [4] /\ map (fun j => hd 0 (element res (8 * j))) [0; 1; 2; 3] = [10; 13; 16; 19].
Proof.
  intros v i. split; [repeat split; lia|]. split; [repeat split; lia|]. eexists. split; [|shelve].
  unfold hooked_index. change (d_dt i =? 0) with true. cbv iota. cbn [r1 r2 r_junk]. eexists. split.
  - unfold mask_call. change (mask_checks v i) with true. cbn [d_str i v]. cbv iota.
    eexists (fun _ _ => 0). eexists. exists 4. split; [|reflexivity]. eexists. split; [reflexivity|]. cbv zeta. split; reflexivity.
  - cbv iota beta. reflexivity.
  Unshelve. split; reflexivity.
Qed.

(** ======== C75: specification ======== *)
(** a walk with one stride passes over the elements of [a] in C order: a vector, or any array whose elements lie so and whose dimensions
    are all at least 2 *)
Definition regular (a : nda) (s : Z) : Prop :=
  (exists n, vector a n s) \/ (proper (lay a) /\ d_dims a <> [] /\ Forall (fun d => 2 <= d) (d_dims a) /\ walks_in_c_order (lay a) s).
(** the integer in w bits *)
Definition int_value (signed : bool) (w x : Z) : Z := if signed then sgn w x else x.
(** the number in a list of bytes, the least significant first *)
Definition le_value (D : list Z) : Z := fold_right (fun b r => b + 256 * r) 0 D.
(** the element of an integer array at a multi-index *)
Definition index_at (i : nda) (signed : bool) (w : Z) (ii : list Z) : Z := int_value signed w (le_value (element i (offset (d_str i) ii))).
(** [res]: one element for each element of [i], in C order: the element of [v] (flattened) which [pick] says, or [D] *)
Definition fetched (v i : nda) (pick : Z -> Z -> option Z) (idx : list Z -> Z) (D : list Z) (res : nda) : Prop :=
  d_dt res = d_dt v /\ d_item res = d_item v /\ d_swap res = d_swap v /\ d_extra res = d_extra v /\ vector res (prod (d_dims i)) (d_item v) /\
  forall ii, inside (d_dims i) ii ->
    match pick (prod (d_dims v)) (idx ii) with
    | Some k => exists vi, inside (d_dims v) vi /\ c_number (d_dims v) vi = k /\
                           element res (c_number (d_dims i) ii * d_item v) = element v (offset (d_str v) vi)
    | None => element res (c_number (d_dims i) ii * d_item v) = D
    end.

(** what the default stands for in an array of dtype [dt] *)
Definition toward_zero (y t : Z) : Prop := is_trunc (fval DBL y) (one_val DBL) t.
Definition int_of (d : pyobj) : option Z := match d with OBool b => Some (if b then 1 else 0) | OInt z | ONpInt z => Some z | _ => None end.
Definition in_type (signed : bool) (w t : Z) : Prop := if signed then - 2 ^ (w - 1) <= t < 2 ^ (w - 1) else 0 <= t < 2 ^ w.
Definition float_dtype (dt : Z) : option fmt := match dt with 11 => Some FLT | 12 => Some DBL | _ => None end.
Definition finite_double (y : Z) : Prop := 0 <= y < 2 ^ 64 /\ ~ fnan DBL y /\ ~ infinite_p DBL y.
(** the defaults that are representable: integers and numbers that fit; integers up to 64 bits into floats; no default (None) *)
Definition representable (dt item : Z) (d : pyobj) : Prop :=
  match int_dtype dt, float_dtype dt with
  | Some (s, w), _ => item = w / 8 /\ (d = ONone \/ (exists z, int_of d = Some z /\ in_type s w z) \/
                                       (exists y t, d = OFloat y /\ finite_double y /\ toward_zero y t /\ in_type s w t))
  | None, Some f => item = fwidth f / 8 /\ (d = ONone \/ (exists z, int_of d = Some z /\ - 2 ^ 63 <= z < 2 ^ 63) \/ (exists y, d = OFloat y /\ 0 <= y < 2 ^ 64))
  | None, None => (dt = 0 /\ item = 1 /\ (d = ONone \/ exists b, d = OBool b)) \/ ((dt = 18 \/ dt = 19) /\ d = ONone /\ 0 <= item <= 1024)
  end.
(** [x], the pattern of an element, is the value of the default: the number itself, rounded for a float array (ties to even), truncated for
    an integer array; None is the smallest signed integer, the largest unsigned one, NaN, False, the empty string *)
Definition stands_for (dt : Z) (d : pyobj) (x : Z) : Prop :=
  match int_dtype dt, float_dtype dt with
  | Some (s, w), _ =>
      (d = ONone -> int_value s w x = if s then - 2 ^ (w - 1) else 2 ^ w - 1) /\ (forall z, int_of d = Some z -> int_value s w x = z) /\
      (forall y, d = OFloat y -> toward_zero y (int_value s w x))
  | None, Some f =>
      (d = ONone -> fnan f x) /\ (forall z, int_of d = Some z -> exists g, has f (z < 0) g x /\ nearest_even f (Z.abs z * one_val f) 1 g) /\
      (forall y, d = OFloat y -> (dt = 12 -> x = y) /\
        (dt = 11 -> (fnan DBL y -> fnan FLT x) /\ (infinite_p DBL y -> has FLT (neg_p DBL y) (finf FLT) x) /\
                    (~ fnan DBL y -> ~ infinite_p DBL y -> exists g, has FLT (neg_p DBL y) g x /\ nearest_even FLT (fabsval DBL y * one_val FLT) (one_val DBL) g)))
  | None, None => (d = ONone -> x = 0) /\ (forall z, int_of d = Some z -> x = z)
  end.

(** ======== C75: lemmas ======== *)
Lemma prod_nonneg ds : Forall (fun d => 0 <= d) ds -> 0 <= prod ds.
Proof. induction 1; cbn [prod]; nia. Qed.
Lemma c_number_range : forall ds ii, inside ds ii -> 0 <= c_number ds ii < prod ds.
Proof. induction ds as [|d ds IH]; intros ii H; inversion H as [|? i ? is' Hi H']; subst; cbn [c_number prod]; [lia|]. specialize (IH _ H'). nia. Qed.
Lemma c_number_onto : forall ds k, Forall (fun d => 0 <= d) ds -> 0 <= k < prod ds -> exists ii, inside ds ii /\ c_number ds ii = k.
Proof.
  induction ds as [|d ds IH]; intros k F Hk; cbn [prod] in Hk.
  - exists []. split; [constructor|]. cbn. lia.
  - inversion F; subst. pose proof (prod_nonneg ds ltac:(assumption)) as P. assert (0 < prod ds) by nia.
    pose proof (Z.div_mod k (prod ds) ltac:(lia)). pose proof (Z.mod_pos_bound k (prod ds) ltac:(lia)).
    destruct (IH (k mod prod ds) ltac:(assumption) ltac:(lia)) as (ii & I1 & I2). exists (k / prod ds :: ii). split.
    + constructor; [|exact I1]. split; [apply Z.div_pos; lia|]. apply Z.div_lt_upper_bound; nia.
    + cbn [c_number]. rewrite I2. nia.
Qed.
Lemma length_prod l acc : fold_left Z.mul l acc = acc * prod l.
Proof. revert acc. induction l as [|d l IH]; intros acc; cbn [fold_left prod]; [ring|]. rewrite IH. ring. Qed.
Lemma array_length_prod a : array_length (lay a) = prod (d_dims a).
Proof. unfold array_length. cbn [dims lay]. rewrite length_prod. ring. Qed.
Lemma regular_facts a s : regular a s -> accepted_stride (lay a) = Some s /\ Forall (fun d => 0 <= d) (d_dims a) /\ walks_in_c_order (lay a) s.
Proof.
  intros [(n & D & S & N)|(P & Hn & B & W)].
  - unfold accepted_stride, GetStridesAndContig, walks_in_c_order. cbn [strides dims lay]. rewrite D, S. cbn. split; [reflexivity|]. split; [repeat constructor; exact N|].
    intros is_ H. inversion H as [|? i ? is' Hi H']; subst. inversion H'; subst. cbn [offset c_number prod]. ring.
  - split; [apply (C45_complete_partial (lay a) s P B Hn W)|]. split; [|exact W]. eapply Forall_impl; [|exact B]. cbv beta. lia.
Qed.
Lemma ldn_le m a : forall n lo hi, hi - lo = Z.of_nat n -> ldn n m (a + lo) = le_value (map (fun b => m (a + b)) (zrange lo hi)).
Proof.
  induction n as [|n IH]; intros lo hi E; [rewrite zrange_nil by lia; reflexivity|]. rewrite zrange_cons by lia. cbn [ldn map le_value fold_right].
  f_equal. f_equal. replace (a + lo + 1) with (a + (lo + 1)) by ring. apply IH. lia.
Qed.
Lemma ld_le m a k : 0 <= k -> ld k m a = le_value (map (fun b => m (a + b)) (zrange 0 k)).
Proof. intros Hk. unfold ld. rewrite <- (ldn_le m a (Z.to_nat k) 0 k) by lia. now rewrite Z.add_0_r. Qed.
Lemma le_bytes x : forall n lo, 0 <= lo -> le_value (map (byte_of x) (zrange lo (lo + Z.of_nat n))) = x / 256 ^ lo mod 256 ^ Z.of_nat n.
Proof.
  induction n as [|n IH]; intros lo Hlo; [rewrite zrange_nil by lia; rewrite Z.mod_1_r; reflexivity|].
  rewrite zrange_cons by lia. cbn [map le_value fold_right]. change (fold_right _ 0 (map (byte_of x) ?l)) with (le_value (map (byte_of x) l)).
  replace (lo + Z.of_nat (S n)) with (lo + 1 + Z.of_nat n) by lia. rewrite IH by lia. unfold byte_of.
  rewrite Nat2Z.inj_succ, !Z.pow_succ_r, Z.add_1_r, Z.pow_succ_r by lia. rewrite (Z.mul_comm 256 (256 ^ lo)), <- Z.div_div by (pose proof (Z.pow_pos_nonneg 256 lo); lia).
  symmetry. apply Z.rem_mul_r; [lia|]. pose proof (Z.pow_pos_nonneg 256 (Z.of_nat n)); lia.
Qed.
Lemma le_bytes0 x k : 0 <= k -> 0 <= x < 256 ^ k -> le_value (map (byte_of x) (zrange 0 k)) = x.
Proof.
  intros Hk Hx. pose proof (le_bytes x (Z.to_nat k) 0 ltac:(lia)) as E. rewrite Z2Nat.id in E by lia. cbn [Z.add] in E. rewrite Z.add_0_l in E by lia. rewrite E.
  change (256 ^ 0) with 1. rewrite Z.div_1_r. now apply Z.mod_small.
Qed.

(** the call with its default as it is kept in memory *)
Definition args_of (v i : nda) (d : option pyobj) : pyobj := OTuple (OArr v :: OArr i :: match d with Some d => [d] | None => [] end).
Definition default_of (d : option pyobj) : pyobj := match d with Some d => d | None => ONone end.
Lemma getitem_raw v i d r a signed w sv si :
  regular v sv -> regular i si -> 0 < d_item v -> d_swap v = false -> d_extra v = false ->
  int_dtype (d_dt i) = Some (signed, w) -> d_item i = w / 8 -> d_swap i = false ->
  (signed = true \/ fixed_item (d_item v) = true /\ forall ii, inside (d_dims i) ii -> 0 <= index_at i signed w ii < 2 ^ (w - 1)) ->
  r1 r = Alone \/ sv = d_item v ->
  getitem_call (args_of v i d) r a ->
  exists res, a = Gives res /\
    fetched v i (if signed then python_index else unsigned_index) (index_at i signed w)
      (map (default_byte (default_of d) (d_dt v) (r_stack r) (r_behind r)) (zrange 0 (d_item v))) res.
Proof.
  intros Rv Ri Hit Sv Xv Ei Ii Si Hsg Hr H. unfold getitem_call in H.
  assert (Ep : parse (args_of v i d) = Some (v, i, default_of d)) by (destruct d; reflexivity). rewrite Ep in H. clear Ep.
  assert (Ed : 13 <? d_dt i = false /\ d_dt i =? 0 = false /\ 0 < w / 8 /\ 0 < w).
  { unfold int_dtype in Ei. destruct (d_dt i) as [|p|p]; try discriminate. repeat (destruct p as [p|p|]; try discriminate); injection Ei as <- <-; repeat split; reflexivity. }
  destruct Ed as (E1 & E2 & W8 & W0). rewrite E1, E2 in H. clear E1 E2.
  destruct (regular_facts v sv Rv) as (Av & Fv & Wv). destruct (regular_facts i si Ri) as (Ai & Fi & Wi). rewrite Av, Ai, Ei in H. cbv zeta in H.
  rewrite !array_length_prod in H. set (def := default_byte (default_of d) (d_dt v) (r_stack r) (r_behind r)) in *.
  set (n := prod (d_dims i)) in *. pose proof (prod_nonneg _ Fi) as Hn. fold n in Hn.
  assert (Ix : forall ii, inside (d_dims i) ii -> index_at i signed w ii = int_value signed w (ld (w / 8) (d_mem i) (d_off i + c_number (d_dims i) ii * si))).
  { intros ii Hii. unfold index_at, element. rewrite Si, Ii. f_equal. rewrite ld_le by lia. cbn [dims strides lay] in Wi. specialize (Wi ii Hii). cbn [dims strides lay] in Wi. rewrite Wi. reflexivity. }
  (* the result from its bytes *)
  assert (FIN : forall mem pick, (forall N u, match pick N u with Some k => 0 <= k < N | None => True end) ->
     (forall j b, 0 <= j < n -> 0 <= b < d_item v ->
        mem (0 + j * d_item v + b) = match pick (prod (d_dims v)) (int_value signed w (ld (w / 8) (d_mem i) (d_off i + j * si))) with
                                     | Some k => d_mem v (d_off v + k * sv + b) | None => def b end) ->
     fetched v i pick (index_at i signed w) (map def (zrange 0 (d_item v))) (like_resize v n mem)).
  { intros mem pick Hpk Hmem. unfold fetched, like_resize. cbn [d_dt d_item d_swap d_extra]. rewrite Sv, Xv. repeat (split; [reflexivity|]).
    split; [repeat split; exact Hn|]. intros ii Hii. rewrite (Ix ii Hii). pose proof (c_number_range _ _ Hii) as Cr. fold n in Cr.
    set (j := c_number (d_dims i) ii) in *. specialize (Hmem j). specialize (Hpk (prod (d_dims v)) (int_value signed w (ld (w / 8) (d_mem i) (d_off i + j * si)))).
    destruct (pick _ _) as [k|].
    - destruct (c_number_onto _ k Fv Hpk) as (vi & I1 & I2). exists vi. split; [exact I1|]. split; [exact I2|]. unfold element. cbn [d_swap d_mem d_off d_item]. rewrite Sv.
      specialize (Wv vi I1). cbn [dims strides lay] in Wv. rewrite Wv, I2. apply map_ext_in. intros b Hb. apply zrange_In in Hb. now apply Hmem.
    - unfold element. cbn [d_swap d_mem d_off d_item]. apply map_ext_in. intros b Hb. apply zrange_In in Hb. now apply Hmem. }
  assert (Pp : forall N u, match python_index N u with Some k => 0 <= k < N | None => True end).
  { intros N u. unfold python_index. destruct (Z.leb_spec 0 u), (Z.ltb_spec u N), (Z.leb_spec (- N) u), (Z.ltb_spec u 0); cbn [andb]; try exact Logic.I; lia. }
  assert (Pu : forall N u, match unsigned_index N u with Some k => 0 <= k < N | None => True end).
  { intros N u. unfold unsigned_index. destruct (Z.leb_spec 0 u), (Z.ltb_spec u N); cbn [andb]; try exact Logic.I; lia. }
  destruct (fixed_item (d_item v)) eqn:Fx.
  - destruct H as (m0 & m' & C & ->). eexists. split; [reflexivity|]. destruct signed.
    + apply FIN; [exact Pp|]. intros j b Hj Hb. cbv beta. destruct (item_addr (d_item v) j b Hit Hb) as [-> ->].
      apply C22_int_getitem in C; [|exact Hit|exact Hn|reflexivity|exact Hr]. destruct C as [C _]. cbn [ga_out ga_isz ga_val ga_values ga_sV ga_vlen ga_w ga_raw ga_index ga_sI] in C.
      rewrite (C j Hj). unfold item_at. cbn [int_value]. destruct (python_index _ _); reflexivity.
    + destruct Hsg as [X|[_ Hb2]]; [discriminate|]. apply FIN; [exact Pu|]. intros j b Hj Hb. cbv beta. destruct (item_addr (d_item v) j b Hit Hb) as [-> ->].
      apply C23_uint_getitem_partial in C; [|exact Hit|exact Hn|reflexivity| |exact Hr].
      * destruct C as [C _]. cbn [ga_out ga_isz ga_val ga_values ga_sV ga_vlen ga_w ga_raw ga_index ga_sI] in C.
        rewrite (C j Hj). unfold item_at. cbn [int_value]. destruct (unsigned_index _ _); reflexivity.
      * cbn [ga_out ga_isz ga_val ga_values ga_sV ga_vlen ga_w ga_raw ga_index ga_sI]. intros k Hk. destruct (c_number_onto _ k Fi Hk) as (ii & I1 & I2).
        specialize (Hb2 ii I1). rewrite (Ix ii I1), I2 in Hb2. exact Hb2.
  - destruct signed; [|destruct Hsg as [X|[X _]]; discriminate]. destruct H as (m0 & m' & C & ->). eexists. split; [reflexivity|].
    apply FIN; [exact Pp|]. intros j b Hj Hb. apply C22_int_getitem_bytes in C; [|exact Hit|exact Hn|reflexivity|exact Hr]. destruct C as [C _].
    cbn [ga_out ga_isz ga_val ga_values ga_sV ga_vlen ga_w ga_raw ga_index ga_sI] in C. now rewrite (C j b Hj Hb).
Qed.

(** ======== C75: the default ======== *)
Lemma int_dtype_cases dt s w : int_dtype dt = Some (s, w) -> (w = 8 \/ w = 16 \/ w = 32 \/ w = 64) /\ dt <> 0 /\ dt <> 11 /\ dt <> 12 /\ dt <> 13.
Proof.
  unfold int_dtype. destruct dt as [|p|p]; try discriminate. repeat (destruct p as [p|p|]; try discriminate); intros [= <- <-]; split; lia.
Qed.
Lemma int_value_mod s w z : (w = 8 \/ w = 16 \/ w = 32 \/ w = 64) -> in_type s w z -> int_value s w (z mod 2 ^ w) = z.
Proof.
  intros Hw H. assert (E : 2 ^ w = 2 * 2 ^ (w - 1)) by (rewrite <- Z.pow_succ_r by lia; f_equal; lia). assert (0 < 2 ^ (w - 1)) by (apply Z.pow_pos_nonneg; lia).
  unfold int_value, in_type in *. destruct s; [|now apply Z.mod_small]. unfold sgn. destruct (Z.le_gt_cases 0 z).
  - rewrite Z.mod_small by lia. destruct (Z.ltb_spec z (2 ^ (w - 1))); lia.
  - assert (M : z mod 2 ^ w = z + 2 ^ w) by (symmetry; apply Z.mod_unique with (q := -1); lia). rewrite M. destruct (Z.ltb_spec (z + 2 ^ w) (2 ^ (w - 1))); lia.
Qed.
Lemma in_type_64 s w z : (w = 8 \/ w = 16 \/ w = 32 \/ w = 64) -> in_type s w z -> if s then - 2 ^ 63 <= z < 2 ^ 63 else 0 <= z < 2 ^ 64.
Proof. unfold in_type. destruct s; intros [->|[->|[->| ->]]]; cbn [Z.sub Z.add Z.opp Z.pos_sub Pos.pred_double]; lia. Qed.
Lemma from_int_ok dt s w v v2 x k z : int_dtype dt = Some (s, w) -> in_type s w z -> (if s then v = z else v2 = z) ->
  from_int dt v v2 = Filled x k -> 0 <= x < 2 ^ w /\ int_value s w x = z /\ k = w / 8.
Proof.
  intros E T V. destruct (int_dtype_cases dt s w E) as (Hw & N0 & N11 & N12 & _). unfold from_int.
  assert (X : match dt with 0 => Filled (v mod 2 ^ 8) 1 | 11 => Filled (of_int FLT v) 4 | 12 => Filled (of_int DBL v) 8
              | _ => match int_dtype dt with Some (s, w) => Filled ((if s then v else v2) mod 2 ^ w) (w / 8) | None => Fails end end = Filled (z mod 2 ^ w) (w / 8)).
  { rewrite E. replace (if s then v else v2) with z by (destruct s; congruence).
    destruct dt as [|p|p]; try congruence; try reflexivity. repeat (destruct p as [p|p|]; try reflexivity; try congruence). }
  rewrite X. intros [= <- <-]. split; [apply Z.mod_pos_bound, Z.pow_pos_nonneg; lia|]. split; [now apply int_value_mod|reflexivity].
Qed.
Lemma trunc_unique y t : toward_zero y t -> trunc_of y = t.
Proof.
  unfold toward_zero, is_trunc, trunc_of. change (signed_value DBL y) with (fval DBL y). destruct (uv DBL (or_intror eq_refl)) as [-> Ho]. set (o := one_val DBL) in *. set (v := fval DBL y).
  intros [[A B] C]. destruct (Z.le_gt_cases 0 v) as [P|P].
  - rewrite Z.quot_div_nonneg by lia. rewrite (Z.abs_eq v) in * by exact P. assert (0 <= t) by nia. rewrite Z.abs_eq in * by lia. symmetry. apply Z.div_unique with (r := v - t * o); nia.
  - replace v with (- (- v)) by ring. rewrite Z.quot_opp_l by lia. rewrite Z.quot_div_nonneg by lia. rewrite (Z.abs_neq v) in * by lia.
    assert (t <= 0) by nia. rewrite Z.abs_neq in * by lia. rewrite <- (Z.opp_involutive t). f_equal. symmetry. apply Z.div_unique with (r := - v - (- t) * o); nia.
Qed.
Lemma cvtt_ok w y t : 0 < w -> finite_double y -> toward_zero y t -> - 2 ^ (w - 1) <= t < 2 ^ (w - 1) -> cvtt w y = t.
Proof.
  intros Hw (_ & N & F) T R. unfold cvtt. destruct (classes DBL (or_intror eq_refl) y) as (C1 & C2 & _). destruct (is_nan DBL y); [tauto|]. destruct (is_inf DBL y); [tauto|]. cbn [orb].
  rewrite (trunc_unique y t T). replace (_ && _) with true by (symmetry; apply andb_true_intro; split; [apply Z.leb_le|apply Z.ltb_lt]; lia). reflexivity.
Qed.
Lemma double_to_int_ok s w y t : (w = 8 \/ w = 16 \/ w = 32 \/ w = 64) -> finite_double y -> toward_zero y t -> in_type s w t -> double_to_int s w y = t.
Proof.
  intros Hw F T R. unfold double_to_int. destruct Hw as [->|[->|[->| ->]]].
  - apply cvtt_ok; [lia|exact F|exact T|]. destruct s; cbn in R |- *; lia.
  - apply cvtt_ok; [lia|exact F|exact T|]. destruct s; cbn in R |- *; lia.
  - cbn [Z.leb Z.eqb Z.compare Pos.compare Pos.compare_cont Pos.eqb]. destruct s; (apply cvtt_ok; [lia|exact F|exact T|]); cbn in R |- *; lia.
  - cbn [Z.leb Z.eqb Z.compare Pos.compare Pos.compare_cont Pos.eqb]. destruct s; [apply cvtt_ok; [lia|exact F|exact T|]; cbn in R |- *; lia|].
    change (64 <=? 16) with false. change (64 =? 32) with false. cbv iota. destruct (classes DBL (or_intror eq_refl) y) as (C1 & C2 & _). destruct F as (F0 & F1 & F2). destruct (is_nan DBL y) eqn:E1; [tauto|]. destruct (is_inf DBL y) eqn:E2; [tauto|]. cbn [orb].
    change (signed_value DBL y) with (fval DBL y). destruct (uv DBL (or_intror eq_refl)) as [-> Ho]. unfold in_type in R.
    pose proof T as [[T1 T2] T3]. destruct (Z.ltb_spec (fval DBL y) (2 ^ 63 * one_val DBL)) as [L|L].
    + apply cvtt_ok; [lia|exact (conj F0 (conj F1 F2))|exact T|]. change (2 ^ (64 - 1)) with (2 ^ 63). split; [lia|].
      destruct (Z.le_gt_cases (2 ^ 63) t) as [Q|Q]; [|exact Q]. exfalso. rewrite Z.abs_eq in T1 by lia.
      destruct (Z.le_gt_cases 0 (fval DBL y)) as [P|P]; [rewrite Z.abs_eq in T1 by exact P|]; nia.
    + rewrite (trunc_unique y t T). cbv zeta. replace (t - 2 ^ 63 <? 2 ^ 63) with true by (symmetry; apply Z.ltb_lt; lia). lia.
Qed.
Lemma of_int_ok f v : known f -> 0 <= of_int f v < 2 ^ fwidth f /\ exists g, has f (v < 0) g (of_int f v) /\ nearest_even f (Z.abs v * one_val f) 1 g.
Proof.
  intros K. unfold of_int. destruct (uv f K) as [-> Ho]. assert (R := rnd_range f K (Z.abs v * one_val f) 1 ltac:(nia) ltac:(lia)).
  destruct (put_ok f K (v <? 0) _ R) as (P1 & P2 & P3). split; [exact P1|]. eexists. split; [split; [exact P2|rewrite P3; apply Z.ltb_lt]|]. apply rnd_ok; [exact K|nia|lia].
Qed.
Lemma to_single_ok y : 0 <= to_single y < 2 ^ 32 /\ (fnan DBL y -> fnan FLT (to_single y)) /\ (infinite_p DBL y -> has FLT (neg_p DBL y) (finf FLT) (to_single y)) /\
  (~ fnan DBL y -> ~ infinite_p DBL y -> exists g, has FLT (neg_p DBL y) g (to_single y) /\ nearest_even FLT (fabsval DBL y * one_val FLT) (one_val DBL) g).
Proof.
  assert (KF : known FLT) by (left; reflexivity). assert (KD : known DBL) by (right; reflexivity).
  destruct (classes DBL KD y) as (C1 & C2 & _ & C4 & _ & C6 & _). unfold to_single. destruct (is_nan DBL y) eqn:N.
  - destruct (qnan_ok FLT KF) as [Q1 Q2]. split; [exact Q1|]. specialize (C6 eq_refl). intuition congruence.
  - destruct (is_inf DBL y) eqn:F.
    + destruct (inf_bound FLT KF) as [[B1 B2] _]. destruct (put_ok FLT KF (fneg DBL y) (finf FLT) ltac:(lia)) as (P1 & P2 & P3). split; [exact P1|].
      split; [intuition congruence|]. split; [|intuition congruence]. intros _. split; [exact P2|tauto].
    + rewrite mv_mag. destruct (uv FLT KF) as [-> Ho]. destruct (uv DBL KD) as [-> Ho2].
      assert (A : 0 <= fabsval DBL y) by (rewrite <- mv_mag; apply mv_nonneg; [exact KD|apply Z.mod_pos_bound; reflexivity]).
      assert (R := rnd_range FLT KF (fabsval DBL y * one_val FLT) (one_val DBL) ltac:(nia) Ho2).
      destruct (put_ok FLT KF (fneg DBL y) _ R) as (P1 & P2 & P3). split; [exact P1|]. split; [intuition congruence|]. split; [intuition congruence|].
      intros _ _. eexists. split; [split; [exact P2|tauto]|]. apply rnd_ok; [exact KF|nia|exact Ho2].
Qed.
(** what pDefault points to *)
Lemma type_default_int dt s w : int_dtype dt = Some (s, w) -> type_default dt = (if s then 2 ^ (w - 1) else 2 ^ w - 1, w / 8).
Proof. unfold int_dtype. destruct dt as [|p|p]; try discriminate. repeat (destruct p as [p|p|]; try discriminate); intros [= <- <-]; reflexivity. Qed.
Lemma filled_bytes d dt stack behind x k : d <> ONone -> convert d dt = Filled x k -> 0 < k <= 32 ->
  map (default_byte d dt stack behind) (zrange 0 k) = map (byte_of x) (zrange 0 k).
Proof.
  intros Hd C Hk. apply map_ext_in. intros b Hb. apply zrange_In in Hb. unfold default_byte.
  destruct d; try congruence; rewrite C; replace (b <? 32) with true by (symmetry; apply Z.ltb_lt; lia); now rewrite Z.mod_small by lia.
Qed.
Lemma none_bytes dt stack behind x k : type_default dt = (x, k) -> map (default_byte ONone dt stack behind) (zrange 0 k) = map (byte_of x) (zrange 0 k).
Proof.
  intros E. apply map_ext_in. intros b Hb. apply zrange_In in Hb. unfold default_byte. rewrite E. replace (b <? k) with true by (symmetry; apply Z.ltb_lt; lia). reflexivity.
Qed.
Lemma none_ok : forall dt stack behind x k item, type_default dt = (x, k) -> item = k -> 0 <= k -> 0 <= x < 256 ^ k ->
  le_value (map (default_byte ONone dt stack behind) (zrange 0 item)) = x.
Proof. intros dt stack behind x k item E -> Hk Hx. rewrite (none_bytes _ _ _ _ _ E). now apply le_bytes0. Qed.
Lemma filled_ok : forall d dt stack behind x k item, d <> ONone -> convert d dt = Filled x k -> item = k -> 0 < k <= 32 -> 0 <= x < 256 ^ k ->
  le_value (map (default_byte d dt stack behind) (zrange 0 item)) = x.
Proof. intros d dt stack behind x k item Hd C -> Hk Hx. rewrite (filled_bytes _ _ _ _ _ _ Hd C Hk). apply le_bytes0; lia. Qed.
Lemma int_of_convert d dt z s w : int_dtype dt = Some (s, w) -> int_of d = Some z -> in_type s w z ->
  exists x, convert d dt = Filled x (w / 8) /\ 0 <= x < 2 ^ w /\ int_value s w x = z.
Proof.
  intros E Hz T. destruct (int_dtype_cases dt s w E) as (Hw & N0 & N11 & N12 & _). pose proof (in_type_64 s w z Hw T) as T64.
  assert (X : exists v v2, convert d dt = from_int dt v v2 /\ if s then v = z else v2 = z).
  { destruct d; try discriminate; cbn [int_of] in Hz; injection Hz as Hz; cbn [convert].
    - do 2 eexists. split; [reflexivity|]. destruct s; exact Hz.
    - do 2 eexists. split; [reflexivity|]. subst z0. destruct s.
      + replace (z <? - 2 ^ 63) with false by (symmetry; apply Z.ltb_ge; lia). replace (2 ^ 63 <=? z) with false by (symmetry; apply Z.leb_gt; lia). reflexivity.
      + replace (z <? - 2 ^ 63) with false by (symmetry; apply Z.ltb_ge; lia). destruct (Z.leb_spec (2 ^ 63) z); cbn [orb].
        * rewrite orb_true_r. now apply Z.mod_small.
        * rewrite orb_false_r. replace (0 <=? z) with true by (symmetry; apply Z.leb_le; lia). now apply Z.mod_small.
    - do 2 eexists. split; [reflexivity|]. subst z0. destruct s; [|now apply Z.mod_small].
      exact (int_value_mod true 64 z ltac:(lia) T64). }
  destruct X as (v & v2 & -> & V). destruct (from_int dt v v2) as [x k| |] eqn:Q.
  - destruct (from_int_ok dt s w v v2 x k z E T V Q) as (A & B & ->). exists x. auto.
  - exfalso. revert Q. unfold from_int. rewrite E. repeat match goal with |- match ?q with _ => _ end = _ -> _ => destruct q; try discriminate end.
  - exfalso. revert Q. unfold from_int. rewrite E. repeat match goal with |- match ?q with _ => _ end = _ -> _ => destruct q; try discriminate end.
Qed.
Lemma float_of_convert d dt z f : float_dtype dt = Some f -> int_of d = Some z -> - 2 ^ 63 <= z < 2 ^ 63 -> convert d dt = Filled (of_int f z) (fwidth f / 8).
Proof.
  intros E Hz T. assert (Ed : (dt = 11 /\ f = FLT) \/ (dt = 12 /\ f = DBL)).
  { unfold float_dtype in E. destruct dt as [|p|p]; try discriminate. repeat (destruct p as [p|p|]; try discriminate); injection E as <-; auto. }
  destruct d; try discriminate; cbn [int_of] in Hz; injection Hz as Hz; cbn [convert].
  - rewrite <- Hz. destruct Ed as [[-> ->]|[-> ->]]; reflexivity.
  - subst z0. replace (z <? - 2 ^ 63) with false by (symmetry; apply Z.ltb_ge; lia). replace (2 ^ 63 <=? z) with false by (symmetry; apply Z.leb_gt; lia). cbn [orb].
    destruct Ed as [[-> ->]|[-> ->]]; reflexivity.
  - subst z0. pose proof (int_value_mod true 64 z ltac:(lia) T) as M. cbn [int_value] in M. rewrite M. destruct Ed as [[-> ->]|[-> ->]]; reflexivity.
Qed.
Lemma pow256 w : (w = 8 \/ w = 16 \/ w = 32 \/ w = 64) -> 256 ^ (w / 8) = 2 ^ w /\ 0 < w / 8 <= 32.
Proof. intros [->|[->|[->| ->]]]; split; try reflexivity; cbn; lia. Qed.
Lemma int_of_not_none d z : int_of d = Some z -> d <> ONone. Proof. intros H ->. discriminate. Qed.

Lemma default_ok dt item d stack behind : representable dt item d ->
  stands_for dt d (le_value (map (default_byte d dt stack behind) (zrange 0 item))).
Proof.
  unfold representable, stands_for. destruct (int_dtype dt) as [[s w]|] eqn:E.
  - destruct (int_dtype_cases dt s w E) as (Hw & N0 & N11 & N12 & N13). destruct (pow256 w Hw) as [P8 R8]. intros (-> & [->|[(z & Hz & T)|(y & t & -> & F & Tz & T)]]).
    + assert (X : 0 <= (if s then 2 ^ (w - 1) else 2 ^ w - 1) < 2 ^ w).
      { assert (2 ^ w = 2 * 2 ^ (w - 1)) by (rewrite <- Z.pow_succ_r by lia; f_equal; lia). assert (0 < 2 ^ (w - 1)) by (apply Z.pow_pos_nonneg; lia). destruct s; lia. }
      rewrite (none_ok dt stack behind _ _ (w / 8) (type_default_int dt s w E) eq_refl) by (rewrite ?P8; lia). split; [|split; [intros z H; discriminate|intros y H; discriminate]].
      intros _. unfold int_value. destruct s; [|reflexivity]. unfold sgn. rewrite Z.ltb_irrefl.
      assert (2 ^ w = 2 * 2 ^ (w - 1)) by (rewrite <- Z.pow_succ_r by lia; f_equal; lia). lia.
    + destruct (int_of_convert d dt z s w E Hz T) as (x & C & X & V). pose proof (int_of_not_none _ _ Hz) as Hd.
      rewrite (filled_ok d dt stack behind x _ (w / 8) Hd C eq_refl) by (rewrite ?P8; lia). split; [congruence|]. split; [intros z' Hz'; congruence|]. intros y ->. discriminate.
    + assert (C : convert (OFloat y) dt = Filled (double_to_int s w y mod 2 ^ w) (w / 8)).
      { cbn [convert]. rewrite E. destruct dt as [|p|p]; try congruence; try reflexivity. repeat (destruct p as [p|p|]; try reflexivity; try congruence). }
      rewrite (double_to_int_ok s w y t Hw F Tz T) in C.
      rewrite (filled_ok (OFloat y) dt stack behind _ _ (w / 8) ltac:(discriminate) C eq_refl R8) by (rewrite P8; apply Z.mod_pos_bound, Z.pow_pos_nonneg; lia).
      split; [discriminate|]. split; [discriminate|]. intros y' [= <-]. now rewrite int_value_mod.
  - destruct (float_dtype dt) as [f|] eqn:Ef.
    + assert (Ed : (dt = 11 /\ f = FLT) \/ (dt = 12 /\ f = DBL)).
      { unfold float_dtype in Ef. destruct dt as [|p|p]; try discriminate. repeat (destruct p as [p|p|]; try discriminate); injection Ef as <-; auto. }
      assert (K : known f) by (destruct Ed as [[_ ->]|[_ ->]]; [left|right]; reflexivity).
      assert (P8 : 256 ^ (fwidth f / 8) = 2 ^ fwidth f /\ 0 < fwidth f / 8 <= 32) by (destruct Ed as [[_ ->]|[_ ->]]; split; try reflexivity; cbn; lia). destruct P8 as [P8 R8].
      intros (-> & [->|[(z & Hz & T)|(y & -> & Hy)]]).
      * split; [|split; [intros z H; discriminate|intros y H; discriminate]]. intros _. destruct Ed as [[-> ->]|[-> ->]].
        -- rewrite (none_ok 11 stack behind 2143289344 4 (fwidth FLT / 8)); [split; [reflexivity|discriminate]|reflexivity|reflexivity|lia|lia].
        -- rewrite (none_ok 12 stack behind 9221120237041090560 8 (fwidth DBL / 8)); [split; [reflexivity|discriminate]|reflexivity|reflexivity|lia|lia].
      * pose proof (float_of_convert d dt z f Ef Hz T) as C. pose proof (int_of_not_none _ _ Hz) as Hd. destruct (of_int_ok f z K) as [X G].
        rewrite (filled_ok d dt stack behind _ _ (fwidth f / 8) Hd C eq_refl R8) by (rewrite P8; exact X).
        split; [congruence|]. split; [intros z' Hz'; assert (z' = z) as -> by congruence; exact G|]. intros y ->. discriminate.
      * split; [discriminate|]. split; [discriminate|]. intros y' [= <-]. destruct (to_single_ok y) as (S1 & S2).
        destruct Ed as [[-> ->]|[-> ->]]; (split; [intros Q|intros Q]); try discriminate.
        -- rewrite (filled_ok (OFloat y) 11 stack behind (to_single y) 4 (fwidth FLT / 8)); [exact S2|discriminate|reflexivity|reflexivity|lia|exact S1].
        -- rewrite (filled_ok (OFloat y) 12 stack behind y 8 (fwidth DBL / 8)); [reflexivity|discriminate|reflexivity|reflexivity|lia|exact Hy].
    + intros [(-> & -> & [->|(b & ->)])|(Hdt & -> & Hi)].
      * split; [|discriminate]. intros _. reflexivity.
      * split; [discriminate|]. intros z [= <-]. destruct b; reflexivity.
      * split; [|discriminate]. intros _.
        replace (map _ _) with (map (byte_of 0) (zrange 0 item)).
        -- apply le_bytes0; [lia|]. split; [lia|]. apply Z.pow_pos_nonneg; lia.
        -- symmetry. apply map_ext_in. intros b Hb. apply zrange_In in Hb. unfold default_byte. destruct Hdt as [-> | ->]; cbn [type_default]; replace (b <? 1024) with true by (symmetry; apply Z.ltb_lt; lia); reflexivity.
Qed.

(** ======== C75: theorems ======== *)
Lemma default_bytes_ok dt item d stack behind b : representable dt item d -> 0 <= b < item -> 0 <= default_byte d dt stack behind b < 256.
Proof.
  intros R Hb. assert (B : forall x c, 0 <= byte_of x c < 256) by (intros; apply Z.mod_pos_bound; lia).
  assert (X : (d = ONone \/ item <= 32) /\ item <= snd (type_default dt) /\ match d with OBytes _ | OStr _ => False | _ => True end).
  { unfold representable in R. destruct (int_dtype dt) as [[s w]|] eqn:E.
    - rewrite (type_default_int dt s w E). cbn [snd]. destruct (int_dtype_cases dt s w E) as (Hw & _). destruct (pow256 w Hw) as [_ R8].
      destruct R as (-> & [->|[(z & Hz & _)|(y & t & -> & _)]]); (split; [lia|]); (split; [lia|]); try exact Logic.I. destruct d; try exact Logic.I; discriminate.
    - destruct (float_dtype dt) as [f|] eqn:Ef.
      + assert (Ed : (dt = 11 /\ f = FLT) \/ (dt = 12 /\ f = DBL)).
        { unfold float_dtype in Ef. destruct dt as [|p|p]; try discriminate. repeat (destruct p as [p|p|]; try discriminate); injection Ef as <-; auto. }
        assert (I8 : fwidth f / 8 <= 8 /\ fwidth f / 8 <= snd (type_default dt)) by (destruct Ed as [[-> ->]|[-> ->]]; vm_compute; split; discriminate).
        destruct R as (-> & [->|[(z & Hz & _)|(y & -> & _)]]); (split; [lia|]); (split; [lia|]); try exact Logic.I. destruct d; try exact Logic.I; discriminate.
      + destruct R as [(-> & -> & [->|(q & ->)])|(Hdt & -> & Hi)]; [| |destruct Hdt as [-> | ->]]; cbn [type_default snd]; (split; [auto; lia|]); (split; [lia|]); exact Logic.I. }
  destruct X as (X1 & X2 & X3). unfold default_byte. destruct (type_default dt) as [x k]. cbn [snd] in X2. replace (b <? k) with true by (symmetry; apply Z.ltb_lt; lia).
  assert (b <? 32 = true \/ d = ONone) as [Q|Q] by (destruct X1; [right; assumption|left; apply Z.ltb_lt; lia]).
  - destruct d; try apply B; try contradiction; destruct (convert _ _) eqn:C; rewrite ?Q; try apply B; cbn [convert] in C; revert C; unfold from_int;
      repeat match goal with |- context [match ?q with _ => _ end] => destruct q end; discriminate.
  - rewrite Q. apply B.
Qed.
Theorem C75_getitem_partial : forall v i d r a signed w sv si,
  regular v sv -> regular i si -> 0 < d_item v -> d_swap v = false -> d_extra v = false ->
  int_dtype (d_dt i) = Some (signed, w) -> d_item i = w / 8 -> d_swap i = false ->
  (signed = true \/ fixed_item (d_item v) = true /\ forall ii, inside (d_dims i) ii -> 0 <= index_at i signed w ii < 2 ^ (w - 1)) ->
  r1 r = Alone \/ sv = d_item v ->
  getitem_call (args_of v i d) r a ->
  exists res D, a = Gives res /\ fetched v i (if signed then python_index else unsigned_index) (index_at i signed w) D res /\ Z.of_nat (length D) = d_item v /\
    (representable (d_dt v) (d_item v) (default_of d) -> stands_for (d_dt v) (default_of d) (le_value D) /\ Forall (fun b => 0 <= b < 256) D).
Proof.
  intros v i d r a signed w sv si Rv Ri Hit Sv Xv Ei Ii Si Hsg Hr H. destruct (getitem_raw v i d r a signed w sv si Rv Ri Hit Sv Xv Ei Ii Si Hsg Hr H) as (res & -> & F).
  exists res. eexists. split; [reflexivity|]. split; [exact F|]. split; [rewrite map_length, zrange_length; lia|]. intros R. split; [now apply default_ok|].
  apply Forall_forall. intros x Hx. apply in_map_iff in Hx. destruct Hx as (b & <- & Hb). apply zrange_In in Hb. eapply default_bytes_ok; eassumption.
Qed.
Print Assumptions C75_getitem_partial.

(** what the call does with its arguments: anything but two arrays, or two arrays and an object, is refused, and so is every index array
    that does not hold integers or booleans, or whose elements lie nowhere on one stride *)
Theorem C75_refusals : forall args r a, getitem_call args r a ->
  (match args with OTuple (OArr v :: OArr i :: rest) => (2 <= length rest)%nat \/ 11 <= d_dt i \/ d_dt i < 0 \/
      (d_dt i <> 0 /\ (accepted_stride (lay v) = None \/ accepted_stride (lay i) = None)) | _ => True end) -> a = Refused.
Proof.
  intros args r a H C. unfold getitem_call in H. destruct args; try exact H. destruct l as [|[] [|[] [|d [|]]]]; try exact H; cbn [parse] in H; cbn [length] in C.
  all: destruct (Z.ltb_spec 13 (d_dt a1)); [exact H|]; destruct (Z.eqb_spec (d_dt a1) 0) as [E|E]; [destruct C as [C|[C|[C|[C _]]]]; lia|].
  all: destruct (accepted_stride (lay a0)); [|exact H]; destruct (accepted_stride (lay a1)); [|exact H].
  all: assert (N : int_dtype (d_dt a1) = None) by (destruct C as [C|[C|[C|[_ [C|C]]]]]; try lia; try discriminate; unfold int_dtype; destruct (d_dt a1) as [|p|p]; try reflexivity; try lia;
                                                 repeat (destruct p as [p|p|]; try reflexivity; try lia)).
  all: rewrite N in H; exact H.
Qed.
Print Assumptions C75_refusals.

(** a Python integer that does not fit 64 bits becomes -1.0 in a float64 array, and one in a bool array keeps its low byte *)
Theorem C75_big_integer_default_refuted : forall z stack behind, z < - 2 ^ 63 \/ 2 ^ 63 <= z ->
  le_value (map (default_byte (OInt z) 12 stack behind) (zrange 0 8)) = 13830554455654793216 /\ fval DBL 13830554455654793216 = - one_val DBL.
Proof.
  intros z stack behind H. split; [|reflexivity]. apply (filled_ok (OInt z) 12 stack behind 13830554455654793216 8 8); [discriminate| |reflexivity|lia|lia].
  cbn [convert]. replace ((z <? - 2 ^ 63) || (2 ^ 63 <=? z)) with true; [reflexivity|]. symmetry. apply orb_true_iff. rewrite Z.ltb_lt, Z.leb_le. exact H.
Qed.
Print Assumptions C75_big_integer_default_refuted.
Theorem C75_bool_default_refuted : forall z stack behind, - 2 ^ 63 <= z < 2 ^ 63 -> le_value (map (default_byte (OInt z) 0 stack behind) (zrange 0 1)) = z mod 256.
Proof.
  intros z stack behind H. apply (filled_ok (OInt z) 0 stack behind (z mod 256) 1 1); [discriminate| |reflexivity|lia|apply Z.mod_pos_bound; lia].
  cbn [convert]. replace ((z <? - 2 ^ 63) || (2 ^ 63 <=? z)) with false; [reflexivity|]. symmetry. apply orb_false_iff. rewrite Z.ltb_ge, Z.leb_gt. lia.
Qed.
Print Assumptions C75_bool_default_refuted.

(** a default that is a bytes or str object, for an array of any dtype: the element is what was on the stack *)
Theorem C75_string_default_refuted : forall l dt item stack behind,
  map (default_byte (OBytes l) dt stack behind) (zrange 0 item) = map stack (zrange 0 item) /\
  map (default_byte (OStr l) dt stack behind) (zrange 0 item) = map stack (zrange 0 item).
Proof. intros. split; apply map_ext; intros b; reflexivity. Qed.
Print Assumptions C75_string_default_refuted.

(** complex arrays: whatever number is given, the element is the bytes of -2^63 and, for complex128, what lies behind them *)
Theorem C75_complex_default_refuted : forall dt d stack behind, 14 <= dt <= 16 -> match d with OBytes _ | OStr _ => False | _ => True end ->
  forall b, default_byte d dt stack behind b = if b <? 8 then byte_of (2 ^ 63) b else behind b.
Proof.
  intros dt d stack behind Hdt Hd b. assert (E : type_default dt = (2 ^ 63, 8)) by (assert (dt = 14 \/ dt = 15 \/ dt = 16) as [->|[->| ->]] by lia; reflexivity).
  unfold default_byte. rewrite E. assert (C : forall v v2, from_int dt v v2 = Fails) by (intros; assert (dt = 14 \/ dt = 15 \/ dt = 16) as [->|[->| ->]] by lia; reflexivity).
  destruct d; try contradiction; cbn [convert]; rewrite ?C; try reflexivity. assert (dt = 14 \/ dt = 15 \/ dt = 16) as [->|[->| ->]] by lia; reflexivity.
Qed.
Print Assumptions C75_complex_default_refuted.

(** long double arrays: the double's own pattern twice over.  A positive default with at most 37 significant bits, for instance 1.0 or any
    integer below 2^36, becomes a number below 2^-16382. *)
Theorem C75_longdouble_default_refuted : forall y stack behind, 0 < y < 2 ^ 63 -> y mod 2 ^ 16 = 0 ->
  decode80 (le_value (map (default_byte (OFloat y) 13 stack behind) (zrange 0 10))) = S754_finite false (Z.to_pos y) (-16445) /\ y < 2 ^ (16445 - 16382).
Proof.
  intros y stack behind Hy Hm. split; [|exact (proj2 Hy)].
  assert (L : le_value (map (default_byte (OFloat y) 13 stack behind) (zrange 0 10)) = y).
  { replace (map _ _) with (map (byte_of y) (zrange 0 10)); [apply le_bytes0; [lia|]; assert (2 ^ 63 < 256 ^ 10) by reflexivity; lia|].
    apply map_ext_in. intros b Hb. apply zrange_In in Hb. unfold default_byte. cbn [convert]. replace (b <? 32) with true by (symmetry; apply Z.ltb_lt; lia).
    destruct (Z.lt_ge_cases b 8); [now rewrite Z.mod_small by lia|]. unfold byte_of. assert (b = 8 \/ b = 9) as [-> | ->] by lia.
    - change (8 mod 8) with 0. change (256 ^ 8) with (2 ^ 64). rewrite (Z.div_small y (2 ^ 64)) by lia. change (256 ^ 0) with 1. rewrite Z.div_1_r. change (0 mod 256) with 0.
      rewrite (Z.div_mod y (2 ^ 16)), Hm by lia. replace (2 ^ 16 * (y / 2 ^ 16) + 0) with (y / 2 ^ 16 * 256 * 256) by (change (2 ^ 16) with 65536; ring). now rewrite Z.mod_mul.
    - change (9 mod 8) with 1. rewrite (Z.div_small y (256 ^ 9)) by (assert (2 ^ 63 < 256 ^ 9) by reflexivity; lia). change (256 ^ 1) with 256. change (0 mod 256) with 0.
      rewrite (Z.div_mod y (2 ^ 16)), Hm by lia. replace (2 ^ 16 * (y / 2 ^ 16) + 0) with (y / 2 ^ 16 * 256 * 256) by (change (2 ^ 16) with 65536; ring). rewrite Z.div_mul by lia. now rewrite Z.mod_mul. }
  rewrite L. unfold decode80. assert (T : Z.testbit y 79 = false) by (apply Z.bits_above_log2; [lia|]; apply Z.log2_lt_pow2; [lia|]; assert (2 ^ 63 < 2 ^ 79) by reflexivity; lia).
  rewrite T, (Z.div_small y (2 ^ 64)), (Z.mod_small y (2 ^ 64)) by lia. change (0 mod 2 ^ 15) with 0. cbn [Z.eqb]. destruct y as [|p|p]; [lia| |lia]. reflexivity.
Qed.
Print Assumptions C75_longdouble_default_refuted.

(** byte-swapped values: every fetched element comes out reversed *)
Theorem C75_byteswapped_refuted : forall v i d r a w sv si,
  regular v sv -> regular i si -> 0 < d_item v -> d_swap v = true -> d_extra v = false ->
  int_dtype (d_dt i) = Some (true, w) -> d_item i = w / 8 -> d_swap i = false -> r1 r = Alone \/ sv = d_item v ->
  getitem_call (args_of v i d) r a ->
  exists res, a = Gives res /\ d_swap res = false /\
    forall ii k, inside (d_dims i) ii -> python_index (prod (d_dims v)) (index_at i true w ii) = Some k ->
      exists vi, inside (d_dims v) vi /\ c_number (d_dims v) vi = k /\ element res (c_number (d_dims i) ii * d_item v) = rev (element v (offset (d_str v) vi)).
Proof.
  intros v i d r a w sv si Rv Ri Hit Sv Xv Ei Ii Si Hr H.
  set (v' := mkND (d_dt v) (d_item v) false false (d_dims v) (d_str v) (d_off v) (d_mem v)).
  assert (H' : getitem_call (args_of v' i d) r a).
  { unfold getitem_call in *. assert (Ep : parse (args_of v i d) = Some (v, i, default_of d)) by (destruct d; reflexivity).
    assert (Ep' : parse (args_of v' i d) = Some (v', i, default_of d)) by (destruct d; reflexivity). rewrite Ep in H. rewrite Ep'.
    assert (Ed : 13 <? d_dt i = false /\ d_dt i =? 0 = false) by (unfold int_dtype in Ei; destruct (d_dt i) as [|p|p]; try discriminate; repeat (destruct p as [p|p|]; try discriminate); repeat split; reflexivity).
    destruct Ed as [E1 E2]. rewrite E1, E2 in *. exact H. }
  destruct (getitem_raw v' i d r a true w sv si Rv Ri Hit eq_refl eq_refl Ei Ii Si (or_introl eq_refl) Hr H') as (res & -> & F).
  exists res. split; [reflexivity|]. destruct F as (_ & _ & F3 & _ & _ & F6). split; [exact F3|]. intros ii k Hii Hk. specialize (F6 ii Hii). change (d_dims v') with (d_dims v) in F6.
  rewrite Hk in F6. destruct F6 as (vi & A & B & C). exists vi. split; [exact A|]. split; [exact B|]. etransitivity; [exact C|]. unfold element. rewrite Sv, rev_involutive. reflexivity.
Qed.
Print Assumptions C75_byteswapped_refuted.

(** the hypotheses are met: a 2 by 3 int64 array, three int8 indices 0, -1, 6, no default *)
Example C75_nonvacuous :
  let v := mkND 7 8 false false [2; 3] [24; 8] 0 (fun x => if x mod 8 =? 0 then 10 + x / 8 else 0) in
  let i := mkND 1 1 false false [3] [1] 0 (fun x => if x =? 0 then 0 else if x =? 1 then 255 else 6) in
  regular v 8 /\ regular i 1 /\ representable 7 8 ONone /\
  exists res, getitem_call (args_of v i None) (mkRun Alone Alone (fun _ => 0) (fun _ => 0) (fun _ => 0)) (Gives res) /\
    map (fun j => le_value (element res (8 * j))) [0; 1; 2] = [10; 15; 2 ^ 63].
Proof.
  intros v i. split.
  { right. split; [reflexivity|]. split; [discriminate|]. split; [repeat constructor; lia|]. intros is_ H. inversion H as [|? x ? is' Hx H']; subst. inversion H' as [|? y ? is'' Hy H'']; subst. inversion H''; subst.
    cbn [offset c_number prod strides dims lay v d_str d_dims]. ring. }
  split; [left; exists 3; repeat split; lia|]. split; [split; [reflexivity|left; reflexivity]|].
  eexists. split; [|shelve]. unfold getitem_call. change (parse (args_of v i None)) with (Some (v, i, ONone)). cbv iota beta.
  change (13 <? d_dt i) with false. change (d_dt i =? 0) with false. cbv iota. change (accepted_stride (lay v)) with (Some 8). change (accepted_stride (lay i)) with (Some 1). cbv iota.
  change (int_dtype (d_dt i)) with (Some (true, 8)). cbv iota beta zeta. change (fixed_item (d_item v)) with true. cbv iota.
  eexists (fun _ _ => 0). eexists. split; [reflexivity|]. reflexivity.
  Unshelve. reflexivity.
Qed.
