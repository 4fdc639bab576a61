(** SortCall_Props.v - C80: the native call _pnumpy.sort(a) returns a sorted copy *)
From Coq Require Import SpecFloat Sorting.Permutation.
From Verif Require Import Base Threads_Model Kernel_Model Kernel_Proofs Sort_Model SortCmp_Model ParSort_Model StrPar_Model LexCall_Model Layout_Model GetCall_Model
  Sort_Base_Proofs Sort_Insert_Proofs Sort_Merge_Proofs SortCmp_Proofs Sort_Props ParSort_Proofs ParSort_Props Layout_Props GetCall_Props Sort_Merge_Base_Proofs SortCall_Model.

(** ======== specification ======== *)
(** the elements of an array taken [s] bytes apart, each as its bytes, the least significant first *)
Definition elements (a : nda) (n s : Z) : list (list Z) := map (fun i => element a (i * s)) (zrange 0 n).
(** dtypes: booleans, the integers, float32, float64, long double, bytes, str; [k] is the item size *)
Definition has_size (dt k : Z) : Prop :=
  (dt = 0 /\ k = 1) \/ (exists s w, int_dtype dt = Some (s, w) /\ k = w / 8) \/ (dt = 11 /\ k = 4) \/ (dt = 12 /\ k = 8) \/ (dt = 13 /\ k = 16) \/
  (dt = 18 /\ 0 < k) \/ (dt = 19 /\ exists c, k = 4 * c /\ 0 < c).
Definition is_string_dtype (dt : Z) : Prop := dt = 18 \/ dt = 19.
(** the 4-byte characters of a str element *)
Definition characters (l : list Z) : list Z := map (fun i => le_value (firstn 4 (skipn (4 * i) l))) (seq 0 (length l / 4)).
(** floats: in order, NaN after everything else *)
Definition float_le (x y : spec_float) : Prop := y = S754_nan \/ SFleb x y = true.
(** [x] may stand before [y] in an array of this dtype in ascending order *)
Definition may_precede (dt : Z) (x y : list Z) : Prop :=
  match int_dtype dt with
  | Some (s, w) => int_value s w (le_value x) <= int_value s w (le_value y)
  | None => if dt =? 0 then le_value x <= le_value y
            else if dt =? 11 then float_le (decode32 (le_value x)) (decode32 (le_value y))
            else if dt =? 12 then float_le (decode64 (le_value x)) (decode64 (le_value y))
            else if dt =? 13 then float_le (decode80 (le_value x)) (decode80 (le_value y))
            else if dt =? 18 then ~ lex_less y x
            else ~ lex_less (characters y) (characters x)
  end.
(** [r]: [n] elements of the dtype of [a], native, next to each other: those of the list [l], in ascending order *)
Definition sorted_copy (a r : nda) (n : Z) (l : list (list Z)) : Prop :=
  d_dt r = d_dt a /\ d_item r = d_item a /\ d_swap r = false /\
  Permutation (elements r n (d_item r)) l /\
  forall i j, 0 <= i < j -> j < n -> may_precede (d_dt a) (element r (i * d_item r)) (element r (j * d_item r)).
(** the source, the result and the workspaces have their own cells *)
Definition room (src dst ws pw n : Z) : Prop :=
  disjoint src n dst n /\ (ws = pw \/ disjoint ws (8 * AllocChunk n) pw (8 * AllocChunk n)) /\
  disjoint dst n pw (8 * AllocChunk n) /\ disjoint dst n ws (8 * AllocChunk n) /\ disjoint src n pw (8 * AllocChunk n) /\ disjoint src n ws (8 * AllocChunk n).

(** ======== lemmas ======== *)
Definition num_dtype (dt k : Z) : Prop := has_size dt k /\ ~ is_string_dtype dt.

Lemma atop_num dt k : has_size dt k -> ~ is_string_dtype dt ->
  (exists s w, int_dtype dt = Some (s, w) /\ k = w / 8 /\ In w [8; 16; 32; 64] /\ 1 <= atop_of dt <= 8 /\ signed_t (atop_of dt) = s /\ c_size (atop_of dt) = k) \/
  (dt = 0 /\ k = 1) \/ (dt = 11 /\ k = 4) \/ (dt = 12 /\ k = 8) \/ (dt = 13 /\ k = 16).
Proof.
  intros H Hs. unfold is_string_dtype in Hs. destruct H as [H|[(s & w & H & ->)|[H|[H|[H|[H|H]]]]]]; try tauto.
  left. exists s, w. split; [exact H|]. split; [reflexivity|]. unfold int_dtype in H.
  destruct dt as [|p|p]; try discriminate. repeat match goal with H : match ?p with xI _ => _ | xO _ => _ | xH => _ end = Some _ |- _ => destruct p; try discriminate end;
    injection H as <- <-; (split; [cbn; lia|]); repeat split; vm_compute; congruence.
Qed.
Lemma int_sw t : strict_weak (fun x y => num_key t x <? num_key t y).
Proof. exact (sw_pull (num_key t) Z.ltb sw_int). Qed.
(** what the sorts need of a comparison *)
Record good_order (lt le : item -> item -> bool) (isnan : item -> bool) : Prop := {
  go_sw : strict_weak lt;
  go_1 : forall l r, isnan r = false -> le l r = negb (lt r l);
  go_2 : forall x y, isnan x = true -> lt x y = false;
  go_3 : forall x y, isnan x = true -> isnan y = false -> lt y x = true }.
Lemma int_order t : good_order (fun x y => num_key t x <? num_key t y) (fun x y => num_key t x <=? num_key t y) (fun _ => false).
Proof. constructor; [apply int_sw|intros; lia|intros; discriminate|intros; discriminate]. Qed.
Lemma flt_order t : good_order (lt_float (flt_key t)) (LE_float (flt_key t)) (nan_float (flt_key t)).
Proof. constructor; [apply sw_float|apply float_N1|apply float_N2|apply float_N3]. Qed.

Lemma sorter_numbers dt k : has_size dt k -> ~ is_string_dtype dt -> exists lt le isnan, sorter_of (atop_of dt) = Numbers lt le isnan /\ good_order lt le isnan /\
  forall x y, lt y x = false -> may_precede dt x y.
Proof.
  intros H Hs. destruct (atop_num dt k H Hs) as [(s & w & E & Ek & Hw & T & S1 & S2)|[[-> _]|[[-> _]|[[-> _]|[-> _]]]]].
  - eexists _, _, _. split.
    { unfold sorter_of. replace (atop_of dt =? 19) with false by lia. replace (atop_of dt =? 20) with false by lia. replace (12 <=? atop_of dt) with false by lia. reflexivity. }
    split; [apply int_order|]. intros x y L. unfold may_precede. rewrite E. apply Z.ltb_ge in L. unfold num_key in L. rewrite S1, S2 in L.
    change (little x) with (le_value x) in L. change (little y) with (le_value y) in L. unfold int_value. destruct s; [|exact L].
    replace (8 * k) with w in L; [exact L|]. subst k. cbn [In] in Hw. destruct Hw as [<-|[<-|[<-|[<-|[]]]]]; reflexivity.
  - eexists _, _, _. split; [reflexivity|]. split; [apply int_order|]. intros x y L. apply Z.ltb_ge in L. exact L.
  - eexists _, _, _. split; [reflexivity|]. split; [apply flt_order|]. intros x y L. destruct (nan_last_pair (flt_key 12) x y L) as [[_ A]|[_ [A|A]]]; [left|left|right]; exact A.
  - eexists _, _, _. split; [reflexivity|]. split; [apply flt_order|]. intros x y L. destruct (nan_last_pair (flt_key 13) x y L) as [[_ A]|[_ [A|A]]]; [left|left|right]; exact A.
  - eexists _, _, _. split; [reflexivity|]. split; [apply flt_order|]. intros x y L. destruct (nan_last_pair (flt_key 14) x y L) as [[_ A]|[_ [A|A]]]; [left|left|right]; exact A.
Qed.

Lemma chars4_characters : forall c l, length l = (4 * c)%nat -> chars4 l = characters l.
Proof.
  induction c as [|c IH]; intros l L.
  - destruct l; [reflexivity|discriminate].
  - destruct l as [|a [|b [|d [|e l]]]]; try (cbn [length] in L; lia). assert (Ll : length l = (4 * c)%nat) by (cbn [length] in L; lia).
    cbn [chars4]. rewrite (IH l Ll). unfold characters. replace (length (a :: b :: d :: e :: l) / 4)%nat with (S c) by (cbn [length]; rewrite Ll; replace (S (S (S (S (4 * c))))) with ((S c) * 4)%nat by lia; now rewrite Nat.div_mul).
    replace (length l / 4)%nat with c by (rewrite Ll, Nat.mul_comm; now rewrite Nat.div_mul). cbn [seq map]. f_equal. rewrite <- seq_shift, map_map. apply map_ext.
    intros i. do 2 f_equal. replace (4 * S i)%nat with (S (S (S (S (4 * i))))) by lia. reflexivity.
Qed.

Lemma items_list dst (m : Z -> item) (f : Z -> item) n : (forall i, 0 <= i < n -> m (dst + i) = f i) -> items m dst (dst + n) = map f (zrange 0 n).
Proof.
  intros H. change (items m dst (dst + n)) with (seg m dst (dst + n)). change (map f (zrange 0 n)) with (seg f 0 n). replace (dst + n) with (dst + (n - 0)) by lia.
  apply seg_shift. intros x Hx. rewrite Z.sub_0_r. now apply H.
Qed.

Section Cells.
  Variables (F : nat) (src dst ws pw : Z) (junk : Z -> item).

  (** copying, then any sort of the result's cells *)
  Lemma wp_copy a s n (k : unit -> prog item unit) Q : 0 <= n < Z.of_nat F ->
    (forall m1, (forall i, 0 <= i < n -> m1 (dst + i) = bytes_at a (i * s)) -> wp (fun _ => true) (k tt) Q m1) ->
    wp (fun _ => true) (bind (copy_in F dst a s n) k) Q junk.
  Proof.
    intros Hn H. unfold copy_in.
    eapply wp_loop_b with (Inv := fun j m' => 0 <= j <= n /\ forall i, 0 <= i < j -> m' (dst + i) = bytes_at a (i * s))
      (meas := fun j => n - j) (P := fun _ m' => forall i, 0 <= i < n -> m' (dst + i) = bytes_at a (i * s)).
    - intros j m' (Hj & H1). destruct (j <? n) eqn:E.
      + apply wp_st; [reflexivity|]. apply wp_ret. split; [|lia]. split; [lia|]. intros i Hi. destruct (Z.eq_dec i j) as [->|Hne].
        * now rewrite zupd_eq.
        * rewrite zupd_neq by lia. apply H1. lia.
      + apply wp_ret. intros i Hi. apply H1. lia.
    - intros j m' (Hj & _). lia.
    - split; [lia|]. intros i Hi. lia.
    - lia.
    - intros [] m1 H1. now apply H.
  Qed.

  Lemma numbers_alone a s n mode lt le isnan : sorter_of (atop_of (d_dt a)) = Numbers lt le isnan -> good_order lt le isnan ->
    0 <= n < 2 ^ 63 -> 2 * n + 1 < Z.of_nat F -> disjoint dst n ws (n / 2) ->
    exists m', sorted_cells F src dst ws pw junk a s n mode NoWorkItem m' /\
      Permutation (items m' dst (dst + n)) (map (fun i => bytes_at a (i * s)) (zrange 0 n)) /\ ascending lt m' dst n.
  Proof.
    intros Es [SW N1 N2 N3] Hn HF Hd. unfold sorted_cells. rewrite Es. cbn [sort_here].
    assert (W : wp (fun _ => true) (copy_in F dst a s n ;; sort_in_place F (fun x y => Some (lt x y)) le isnan mode dst n ws)
      (fun _ m' => Permutation (items m' dst (dst + n)) (map (fun i => bytes_at a (i * s)) (zrange 0 n)) /\ ascending lt m' dst n) junk).
    { apply wp_copy; [lia|]. intros m1 H1. apply (in_place_leaf F lt le isnan mode n SW N1 N2 N3); auto; try lia.
      intros m' R1 R2 _. split.
      - rewrite <- (items_list dst m1 _ n H1). exact (rel_of_perm _ _ _ _ R1).
      - intros i j Hi Hj. apply R2; lia. }
    apply wp_exec in W. destruct W as ([] & m' & E & W). exists m'. split; [exact E|exact W].
  Qed.

  Lemma numbers_threads a s n mode lt le isnan wakeup zz sched m' : sorter_of (atop_of (d_dt a)) = Numbers lt le isnan -> good_order lt le isnan ->
    n < 2 ^ 63 -> 2 * n + 1 < Z.of_nat F -> 0 <= wakeup -> ParSort_Proofs.layout src dst ws pw n ->
    sorted_cells F src dst ws pw junk a s n mode (WorkItem wakeup zz sched) m' ->
    Permutation (items m' dst (dst + n)) (map (fun i => bytes_at a (i * d_item a)) (zrange 0 n)) /\ ascending lt m' dst n.
  Proof.
    intros Es [SW N1 N2 N3] Hn HF Hw HL H. unfold sorted_cells in H. rewrite Es in H. destruct H as (Hb & Hr & ->).
    destruct (C33_par_sort lt le isnan SW N1 N2 N3 mode F src dst ws pw n wakeup zz (source_cells src junk a n) sched ltac:(lia) HF Hw HL Hr) as (P & A & _).
    split; [|exact A]. replace (map (fun i => bytes_at a (i * d_item a)) (zrange 0 n)) with (items (source_cells src junk a n) src (src + n)); [exact P|].
    change (items (source_cells src junk a n) src (src + n)) with (seg (source_cells src junk a n) src (src + n)). change (map ?f (zrange 0 n)) with (seg f 0 n).
    replace (src + n) with (src + (n - 0)) at 1 by lia. apply seg_shift. intros x Hx. unfold source_cells. rewrite Z.sub_0_r.
    replace (src <=? src + x) with true by lia. replace (src + x <? src + n) with true by lia. cbn [andb]. do 2 f_equal. lia.
  Qed.

  Lemma numbers_can_return a s n mode lt le isnan wakeup zz : sorter_of (atop_of (d_dt a)) = Numbers lt le isnan -> good_order lt le isnan ->
    65536 <= n < 2 ^ 63 -> 2 * n + 1 < Z.of_nat F -> 1 <= wakeup -> ParSort_Proofs.layout src dst ws pw n ->
    exists sched m', sorted_cells F src dst ws pw junk a s n mode (WorkItem wakeup zz sched) m'.
  Proof.
    intros Es [SW N1 N2 N3] Hn HF Hw HL.
    destruct (C33_can_return lt le isnan SW N1 N2 N3 mode F src dst ws pw n wakeup zz (source_cells src junk a n) [] ltac:(lia) HF Hw HL) as (sched & Hr).
    exists sched. eexists. unfold sorted_cells. rewrite Es. split; [lia|]. split; [exact Hr|reflexivity].
  Qed.

  Lemma strings_alone a s n mode lt (u : item -> list Z) L : sorter_of (atop_of (d_dt a)) = Strings lt -> (forall x y, lt x y = STRING_LT (u x) (u y)) ->
    (forall x, length (u (bytes_at a x)) = L) -> 0 <= n < 2 ^ 63 -> 2 * n + 1 < Z.of_nat F -> disjoint dst n ws (n / 2) ->
    exists m', sorted_cells F src dst ws pw junk a s n mode NoWorkItem m' /\
      Permutation (items m' dst (dst + n)) (map (fun i => bytes_at a (i * s)) (zrange 0 n)) /\
      forall i j, dst <= i < j -> j < dst + n -> ~ lex_less (u (m' j)) (u (m' i)).
  Proof.
    intros Es Hlt HL Hn HF Hd. unfold sorted_cells. rewrite Es. cbn [sort_here].
    assert (W : wp (fun _ => true) (copy_in F dst a s n ;; mergesort0string_ F (fun x y => Some (lt x y)) true F dst (dst + n) ws)
      (fun _ m' => Permutation (items m' dst (dst + n)) (map (fun i => bytes_at a (i * s)) (zrange 0 n)) /\ sorted_seg (fun x y => lexl (u x) (u y)) m' dst (dst + n)) junk).
    { apply wp_copy; [lia|]. intros m1 H1. eapply (mergesort0string_ok F _ (fun x y => lexl (u x) (u y)) (fun x => length (u x) = L)).
      - intros x y Hx Hy. f_equal. rewrite Hlt. apply string_lexl. congruence.
      - exact (sw_pull u lexl sw_lexl).
      - lia.
      - lia.
      - lia.
      - replace (dst + n - dst) with n by lia. unfold disjoint in Hd. lia.
      - reflexivity.
      - reflexivity.
      - intros x Hx. replace x with (dst + (x - dst)) by lia. rewrite H1 by lia. apply HL.
      - intros m' (R1 & R2 & _). split; [|exact R2]. rewrite <- (items_list dst m1 _ n H1). apply R1. }
    apply wp_exec in W. destruct W as ([] & m' & E & P & A). exists m'. split; [exact E|]. split; [exact P|]. intros i j Hi Hj X.
    assert (LL : forall x, In x (items m' dst (dst + n)) -> length (u x) = L).
    { intros x Hx. eapply Permutation_in in Hx; [|exact P]. apply in_map_iff in Hx. destruct Hx as (y & <- & _). apply HL. }
    assert (Li : length (u (m' i)) = L /\ length (u (m' j)) = L) by (split; apply LL; apply in_map; apply zrange_In; lia).
    apply C36_string_lt_is_lexicographic in X; [|lia]. rewrite string_lexl in X by lia. pose proof (A i j ltac:(lia) ltac:(lia)) as A'. cbn in A'. congruence.
  Qed.
End Cells.

Lemma room_layout src dst ws pw n : room src dst ws pw n -> ParSort_Proofs.layout src dst ws pw n.
Proof. intros (A & B & C & D & E & G). constructor; auto. Qed.
Lemma room_ws src dst ws pw n : 0 <= n -> room src dst ws pw n -> disjoint dst n ws (n / 2).
Proof.
  intros Hn (_ & _ & _ & D & _). unfold disjoint in *. assert (n / 2 <= 8 * AllocChunk n); [|lia]. unfold AllocChunk, NumCores.
  pose proof (Z.div_mod n 2 ltac:(lia)). pose proof (Z.mod_pos_bound n 2 ltac:(lia)).
  match goal with |- context [n / ?d] => lazymatch d with 2 => fail | _ => change d with 16; pose proof (Z.div_mod n 16 ltac:(lia)); pose proof (Z.mod_pos_bound n 16 ltac:(lia)) end end. lia.
Qed.
Lemma size_ok dt k : has_size dt k -> type_ok (atop_of dt) = true /\ 0 < k.
Proof.
  intros H. destruct (Z.eq_dec dt 18) as [->|N1]; [split; [reflexivity|]|destruct (Z.eq_dec dt 19) as [->|N2]; [split; [reflexivity|]|]].
  - destruct H as [H|[(s & w & H & _)|H]]; [lia|discriminate|lia].
  - destruct H as [H|[(s & w & H & _)|[H|[H|[H|[H|(_ & c & H)]]]]]]; try lia. discriminate.
  - destruct (atop_num dt k H) as [(s & w & _ & -> & Hw & T & _)|[[-> ->]|[[-> ->]|[[-> ->]|[-> ->]]]]]; try (split; [reflexivity|lia]); [unfold is_string_dtype; lia|].
    split.
    + unfold type_ok. replace (atop_of dt =? -1) with false by lia. replace (14 <? atop_of dt) with false by lia. reflexivity.
    + cbn [In] in Hw. destruct Hw as [<-|[<-|[<-|[<-|[]]]]]; reflexivity.
Qed.
Lemma bytes_at_length a x : 0 <= d_item a -> length (bytes_at a x) = Z.to_nat (d_item a).
Proof. intros H. unfold bytes_at. rewrite map_length. rewrite zrange_length. f_equal. lia. Qed.
Lemma chars4_length : forall c l, length l = (4 * c)%nat -> length (chars4 l) = c.
Proof.
  induction c as [|c IH]; intros l L; [destruct l; [reflexivity|discriminate]|].
  destruct l as [|a [|b [|d [|e l]]]]; try (cbn [length] in L; lia). cbn [chars4 length]. f_equal. apply IH. cbn [length] in L. lia.
Qed.

Lemma zrange_nth0 : forall a b i d, (i < Z.to_nat (b - a))%nat -> nth i (zrange a b) d = a + Z.of_nat i.
Proof.
  intros a b i d. revert a. induction i as [|i IH]; intros a H; rewrite zrange_cons by lia; cbn [nth]; [lia|]. rewrite IH by lia. lia.
Qed.
(** the elements of the result are its cells *)
Lemma result_element dst a keep m' i : 0 < d_item a -> d_swap (like_array a keep (result_bytes dst a m')) = false -> length (m' (dst + i)) = Z.to_nat (d_item a) ->
  element (like_array a keep (result_bytes dst a m')) (i * d_item a) = m' (dst + i).
Proof.
  intros Hk Hs Hl. unfold element. rewrite Hs. cbn [like_array d_mem d_off d_item]. apply nth_ext with (d := 0) (d' := 0); [rewrite map_length, zrange_length; lia|].
  intros j Hj. rewrite map_length, zrange_length in Hj.
  assert (En : nth j (map (fun b => result_bytes dst a m' (0 + i * d_item a + b)) (zrange 0 (d_item a))) 0 = result_bytes dst a m' (i * d_item a + Z.of_nat j)).
  { assert (Q : nth_error (zrange 0 (d_item a)) j = Some (Z.of_nat j)) by (rewrite (nth_error_nth' _ 0) by (rewrite zrange_length; lia); f_equal; rewrite zrange_nth0 by lia; reflexivity).
    erewrite nth_error_nth; [reflexivity|]. rewrite nth_error_map, Q. reflexivity. }
  rewrite En. unfold result_bytes. replace ((i * d_item a + Z.of_nat j) mod d_item a) with (Z.of_nat j).
  2:{ rewrite Z.add_comm, Z.mod_add by lia. symmetry. apply Z.mod_small. lia. }
  replace ((i * d_item a + Z.of_nat j) / d_item a) with i; [now rewrite Nat2Z.id|]. rewrite Z.add_comm, Z.div_add by lia. rewrite Z.div_small by lia. lia.
Qed.

Lemma vector_layout a n s : vector a n s -> array_length (lay a) = n /\ accepted_stride (lay a) = Some s /\ ndim a = 1.
Proof.
  intros (D & S0 & Hn). unfold array_length, accepted_stride, GetStridesAndContig, lay, ndim. cbn [dims strides]. rewrite D, S0. cbn [fold_left length]. split; [lia|]. split; reflexivity.
Qed.
Lemma unswapped a n s : d_swap a = false -> map (fun i => bytes_at a (i * s)) (zrange 0 n) = elements a n s.
Proof. intros H. unfold elements, element. rewrite H. reflexivity. Qed.

Section Call.
  Variables (F : nat) (src dst ws pw : Z) (junk : Z -> item).
  Notation call := (sort_call F src dst ws pw junk).

  (** the items the sort takes: with the stride of the layout, or, on threads, next to each other *)
  Definition taken (a : nda) (s : Z) (h : sort_how) : Z := match h with NoWorkItem => s | WorkItem _ _ _ => d_item a end.

  Lemma cells_sorted a n s mode h m' : has_size (d_dt a) (d_item a) -> 0 <= n < 2 ^ 63 -> 2 * n + 1 < Z.of_nat F -> room src dst ws pw n ->
    (forall w zz sc, h = WorkItem w zz sc -> 0 <= w /\ ~ is_string_dtype (d_dt a)) ->
    sorted_cells F src dst ws pw junk a s n mode h m' ->
    Permutation (items m' dst (dst + n)) (map (fun i => bytes_at a (i * taken a s h)) (zrange 0 n)) /\
    forall i j, 0 <= i < j -> j < n -> may_precede (d_dt a) (m' (dst + i)) (m' (dst + j)).
  Proof.
    intros Hs Hn HF HR Hh Hc. destruct (size_ok _ _ Hs) as [_ Hk].
    assert (D : ~ is_string_dtype (d_dt a) \/ (h = NoWorkItem /\ (d_dt a = 18 \/ d_dt a = 19))).
    { unfold is_string_dtype. destruct (Z.eq_dec (d_dt a) 18); [|destruct (Z.eq_dec (d_dt a) 19); [|left; lia]]; right; (split; [|lia]); (destruct h as [|w zz sc]; [reflexivity|]);
        destruct (Hh w zz sc eq_refl) as [_ X]; unfold is_string_dtype in X; lia. }
    destruct D as [D|[-> D]].
    - destruct (sorter_numbers _ _ Hs D) as (lt & le & isnan & Es & GO & MP).
      assert (P : Permutation (items m' dst (dst + n)) (map (fun i => bytes_at a (i * taken a s h)) (zrange 0 n)) /\ ascending lt m' dst n).
      { destruct h as [|w zz sc].
        - destruct (numbers_alone F src dst ws pw junk a s n mode lt le isnan Es GO Hn HF (room_ws src dst ws pw n (proj1 Hn) HR)) as (m1 & E1 & P1).
          unfold sorted_cells in E1, Hc. rewrite E1 in Hc. injection Hc as <-. exact P1.
        - destruct (Hh w zz sc eq_refl) as [Hw _].
          exact (numbers_threads F src dst ws pw junk a s n mode lt le isnan w zz sc m' Es GO ltac:(lia) HF Hw (room_layout _ _ _ _ _ HR) Hc). }
      split; [apply P|]. intros i j Hi Hj. apply MP. apply P; lia.
    - assert (P : exists u L, (exists lt, sorter_of (atop_of (d_dt a)) = Strings lt /\ forall x y, lt x y = STRING_LT (u x) (u y)) /\ (forall x, length (u (bytes_at a x)) = L) /\
                forall x y, length x = Z.to_nat (d_item a) -> length y = Z.to_nat (d_item a) -> ~ lex_less (u y) (u x) -> may_precede (d_dt a) x y).
      { destruct D as [D|D]; rewrite D.
        - exists (fun x => x), (Z.to_nat (d_item a)). split; [exists STRING_LT; split; reflexivity|]. split; [intros x; apply bytes_at_length; lia|]. intros x y _ _ X. exact X.
        - destruct Hs as [Hs|[(? & ? & Hs & _)|[Hs|[Hs|[Hs|[Hs|(_ & c & Ec & Hc0)]]]]]]; try lia; [rewrite D in Hs; discriminate|].
          assert (Lc : Z.to_nat (d_item a) = (4 * Z.to_nat c)%nat) by lia.
          exists chars4, (Z.to_nat c). split; [exists (fun x y => STRING_LT (chars4 x) (chars4 y)); split; reflexivity|]. split.
          + intros x. apply chars4_length. rewrite bytes_at_length by lia. exact Lc.
          + intros x y Hx Hy X. change (~ lex_less (characters y) (characters x)). rewrite <- !(chars4_characters (Z.to_nat c)) by lia. exact X. }
      destruct P as (u & L & (lt & Es & Hlt) & HL & MP).
      destruct (strings_alone F src dst ws pw junk a s n mode lt u L Es Hlt HL Hn HF (room_ws src dst ws pw n (proj1 Hn) HR)) as (m1 & E1 & P1 & A1).
      unfold sorted_cells in E1, Hc. rewrite E1 in Hc. injection Hc as <-. split; [exact P1|]. intros i j Hi Hj.
      assert (LL : forall x, In x (items m1 dst (dst + n)) -> length x = Z.to_nat (d_item a)).
      { intros x Hx. eapply Permutation_in in Hx; [|exact P1]. apply in_map_iff in Hx. destruct Hx as (y & <- & _). apply bytes_at_length. lia. }
      apply MP; [apply LL; apply in_map; apply zrange_In; lia|apply LL; apply in_map; apply zrange_In; lia|]. apply A1; lia.
  Qed.

  Lemma cells_length a n k s (m' : Z -> item) : 0 <= k -> d_item a = k -> Permutation (items m' dst (dst + n)) (map (fun i => bytes_at a (i * s)) (zrange 0 n)) ->
    forall i, 0 <= i < n -> length (m' (dst + i)) = Z.to_nat k.
  Proof.
    intros Hk <- P i Hi. assert (Hx : In (m' (dst + i)) (items m' dst (dst + n))) by (apply in_map; apply zrange_In; lia).
    eapply Permutation_in in Hx; [|exact P]. apply in_map_iff in Hx. destruct Hx as (y & <- & _). now apply bytes_at_length.
  Qed.
  Lemma result_elements a n s keep (m' : Z -> item) : 0 < d_item a -> d_swap (like_array a keep (result_bytes dst a m')) = false ->
    Permutation (items m' dst (dst + n)) (map (fun i => bytes_at a (i * s)) (zrange 0 n)) ->
    elements (like_array a keep (result_bytes dst a m')) n (d_item a) = items m' dst (dst + n).
  Proof.
    intros Hk Hs P. unfold elements. symmetry. apply items_list. intros i Hi. symmetry. apply result_element; [exact Hk|exact Hs|].
    apply (cells_length a n (d_item a) s m'); auto; lia.
  Qed.

  Lemma call_result a n s kind keep h r : array_length (lay a) = n -> accepted_stride (lay a) = Some s ->
    has_size (d_dt a) (d_item a) -> (is_string_dtype (d_dt a) -> d_swap a = false) -> 0 <= n < 2 ^ 63 -> 2 * n + 1 < Z.of_nat F -> room src dst ws pw n ->
    (forall w zz sc, h = WorkItem w zz sc -> 0 <= w /\ ~ is_string_dtype (d_dt a)) -> call [OArr a] kind keep h r ->
    exists mem, r = Gives (like_array a keep mem) /\
      sorted_copy a (like_array a keep mem) n (map (fun i => bytes_at a (i * taken a s h)) (zrange 0 n)).
  Proof.
    intros El Ea Hs Hsw Hn HF HR Hh Hc. destruct (size_ok _ _ Hs) as [Ht Hk]. unfold sort_call in Hc. rewrite Ht, Ea, El in Hc. cbn [negb] in Hc.
    destruct Hc as (m' & Hc & ->). exists (result_bytes dst a m'). split; [reflexivity|].
    destruct (cells_sorted a n s _ h m' Hs Hn HF HR Hh Hc) as [P A].
    assert (Sw : d_swap (like_array a keep (result_bytes dst a m')) = false).
    { cbn [like_array d_swap]. destruct (((d_dt a =? 18) || (d_dt a =? 19))) eqn:E; [|reflexivity]. cbn [andb]. apply Hsw. unfold is_string_dtype. lia. }
    split; [reflexivity|]. split; [reflexivity|]. split; [exact Sw|]. split.
    - cbn [like_array d_item]. rewrite (result_elements a n _ keep m' Hk Sw P). exact P.
    - intros i j Hi Hj. cbn [like_array d_item]. rewrite !result_element by (auto; apply (cells_length a n (d_item a) (taken a s h) m'); auto; lia). now apply A.
  Qed.
  Lemma call_returns a n s kind keep : array_length (lay a) = n -> accepted_stride (lay a) = Some s ->
    has_size (d_dt a) (d_item a) -> 0 <= n < 2 ^ 63 -> 2 * n + 1 < Z.of_nat F -> room src dst ws pw n ->
    (exists r, call [OArr a] kind keep NoWorkItem r) /\
    (~ is_string_dtype (d_dt a) -> 65536 <= n -> forall w zz, 1 <= w -> exists sched r, call [OArr a] kind keep (WorkItem w zz sched) r).
  Proof.
    intros El Ea Hs Hn HF HR. destruct (size_ok _ _ Hs) as [Ht Hk]. unfold sort_call. rewrite Ht, Ea, El. cbn [negb]. split.
    - assert (D : is_string_dtype (d_dt a) \/ ~ is_string_dtype (d_dt a)) by (unfold is_string_dtype; lia). destruct D as [D|D].
      + assert (X : exists u L lt, sorter_of (atop_of (d_dt a)) = Strings lt /\ (forall x y, lt x y = STRING_LT (u x) (u y)) /\ forall x, length (u (bytes_at a x)) = L).
        { destruct D as [D|D]; rewrite D.
          - exists (fun x => x), (Z.to_nat (d_item a)), STRING_LT. split; [reflexivity|]. split; [reflexivity|]. intros x. apply bytes_at_length. lia.
          - destruct Hs as [Hs|[(? & ? & Hs & _)|[Hs|[Hs|[Hs|[Hs|(_ & c & Ec & Hc0)]]]]]]; try lia; [rewrite D in Hs; discriminate|].
            exists chars4, (Z.to_nat c), (fun x y => STRING_LT (chars4 x) (chars4 y)). split; [reflexivity|]. split; [reflexivity|]. intros x. apply chars4_length. rewrite bytes_at_length by lia. lia. }
        destruct X as (u & L & lt & Es & Hlt & HL).
        destruct (strings_alone F src dst ws pw junk a s n (GetKind kind QSORT) lt u L Es Hlt HL Hn HF (room_ws src dst ws pw n (proj1 Hn) HR)) as (m1 & E1 & _). eauto.
      + destruct (sorter_numbers _ _ Hs D) as (lt & le & isnan & Es & GO & MP).
        destruct (numbers_alone F src dst ws pw junk a s n (GetKind kind QSORT) lt le isnan Es GO Hn HF (room_ws src dst ws pw n (proj1 Hn) HR)) as (m1 & E1 & P1). eauto.
    - intros D Hb w zz Hw. destruct (sorter_numbers _ _ Hs D) as (lt & le & isnan & Es & GO & MP).
      destruct (numbers_can_return F src dst ws pw junk a s n (GetKind kind QSORT) lt le isnan w zz Es GO ltac:(lia) HF Hw (room_layout _ _ _ _ _ HR)) as (sched & m' & H). eauto 6.
  Qed.


  (** A vector of booleans, integers, floats, bytes or str in native byte order: alone (any stride, also 0, negative, or not a multiple of the item size), or
      on threads if it is contiguous and not of strings, the call returns, and what it returns is a new vector of the same dtype with the same elements in
      ascending order (NaNs last). *)
  Theorem C80_sort_partial : forall a n s kind keep h, vector a n s -> has_size (d_dt a) (d_item a) -> d_swap a = false ->
    n < 2 ^ 63 -> 2 * n + 1 < Z.of_nat F -> room src dst ws pw n ->
    (forall w zz sc, h = WorkItem w zz sc -> 0 <= w /\ s = d_item a /\ ~ is_string_dtype (d_dt a)) ->
    (forall r, call [OArr a] kind keep h r -> exists r', r = Gives r' /\ vector r' n (d_item a) /\ sorted_copy a r' n (elements a n s)) /\
    (exists r, call [OArr a] kind keep NoWorkItem r) /\
    (~ is_string_dtype (d_dt a) -> 65536 <= n -> forall w zz, 1 <= w -> exists sched r, call [OArr a] kind keep (WorkItem w zz sched) r).
  Proof.
    intros a n s kind keep h V Hs Sw Hn HF HR Hh. destruct (vector_layout a n s V) as (El & Ea & E1). pose proof V as (D & S0 & H0). split.
    - intros r Hr. destruct (call_result a n s kind keep h r El Ea Hs (fun _ => Sw) ltac:(lia) HF HR) as (mem & -> & SC); [|exact Hr|].
      { intros w zz sc Eh. destruct (Hh w zz sc Eh) as (A & _ & B). auto. }
      eexists. split; [reflexivity|]. split.
      + unfold vector. cbn [like_array d_dims d_str]. rewrite E1, D. cbn [Z.leb Z.compare orb c_strides fold_left]. rewrite Z.mul_1_r. auto.
      + rewrite <- (unswapped a n s Sw). replace (taken a s h) with s in SC; [exact SC|]. destruct h as [|w zz sc]; [reflexivity|]. cbn. now destruct (Hh w zz sc eq_refl) as (_ & -> & _).
    - exact (call_returns a n s kind keep El Ea Hs ltac:(lia) HF HR).
  Qed.
End Call.
Print Assumptions C80_sort_partial.

(** On threads the stride is not looked at: what is sorted are the n items that lie next to each other from the first on, so a vector with an element which is not
    among those does not come back. *)
Theorem C80_strided_threads_refuted : forall F src dst ws pw junk a n s kind keep w zz sched, vector a n s -> has_size (d_dt a) (d_item a) -> ~ is_string_dtype (d_dt a) -> d_swap a = false ->
  n < 2 ^ 63 -> 2 * n + 1 < Z.of_nat F -> room src dst ws pw n -> 0 <= w ->
  (exists i, 0 <= i < n /\ forall j, 0 <= j < n -> element a (j * d_item a) <> element a (i * s)) ->
  forall r, sort_call F src dst ws pw junk [OArr a] kind keep (WorkItem w zz sched) r ->
  exists r', r = Gives r' /\ Permutation (elements r' n (d_item a)) (elements a n (d_item a)) /\ ~ Permutation (elements r' n (d_item a)) (elements a n s).
Proof.
  intros F src dst ws pw junk a n s kind keep w zz sched V Hs Ns Sw Hn HF HR Hw (i & Hi & Hne) r Hr. destruct (vector_layout a n s V) as (El & Ea & E1). pose proof V as (D & S0 & H0).
  destruct (call_result F src dst ws pw junk a n s kind keep (WorkItem w zz sched) r El Ea Hs (fun _ => Sw) ltac:(lia) HF HR) as (mem & -> & (_ & _ & _ & P & _)); [|exact Hr|].
  { intros ? ? ? [= <- <- <-]. auto. }
  eexists. split; [reflexivity|]. cbn [taken] in P. rewrite (unswapped a n _ Sw) in P. change (d_item (like_array a keep mem)) with (d_item a) in P. split; [exact P|].
  intros P2. assert (In (element a (i * s)) (elements a n s)) as Hin by (unfold elements; apply in_map_iff; exists i; split; [reflexivity|apply zrange_In; lia]).
  eapply Permutation_in in Hin; [|apply Permutation_sym; exact P2]. eapply Permutation_in in Hin; [|exact P]. unfold elements in Hin. apply in_map_iff in Hin.
  destruct Hin as (j & Ej & Hj). apply zrange_In in Hj. exact (Hne j Hj Ej).
Qed.
Print Assumptions C80_strided_threads_refuted.

(** Numbers in the other byte order: their bytes are sorted, and returned, as if they were native.  A vector of ones, 2, 4 or 8 bytes each, comes back as a vector
    of 256, 2^24 or 2^56. *)
Theorem C80_swapped_refuted : forall F src dst ws pw junk a n s kind keep signed w, vector a n s -> int_dtype (d_dt a) = Some (signed, w) -> d_item a = w / 8 -> 16 <= w -> d_swap a = true ->
  1 <= n -> n < 2 ^ 63 -> 2 * n + 1 < Z.of_nat F -> room src dst ws pw n ->
  (forall i, 0 <= i < n -> element a (i * s) = 1 :: repeat 0 (Z.to_nat (d_item a) - 1)) ->
  forall r, sort_call F src dst ws pw junk [OArr a] kind keep NoWorkItem r ->
  exists r', r = Gives r' /\ d_dt r' = d_dt a /\ d_item r' = d_item a /\ d_swap r' = false /\ d_dims r' = d_dims a /\
    forall i, 0 <= i < n -> le_value (element r' (i * d_item a)) = 256 ^ (d_item a - 1).
Proof.
  intros F src dst ws pw junk a n s kind keep signed w V Hd Hk Hw Sw H1 Hn HF HR Hone r Hr. destruct (vector_layout a n s V) as (El & Ea & E1).
  assert (Hs : has_size (d_dt a) (d_item a)) by (right; left; eauto).
  assert (Ns : ~ is_string_dtype (d_dt a)) by (intros [E|E]; rewrite E in Hd; discriminate).
  destruct (call_result F src dst ws pw junk a n s kind keep NoWorkItem r El Ea Hs ltac:(tauto) ltac:(lia) HF HR) as (mem & -> & (_ & _ & S0 & P & _)); [discriminate|exact Hr|].
  eexists. split; [reflexivity|]. split; [reflexivity|]. split; [reflexivity|]. split; [exact S0|]. split; [reflexivity|]. intros i Hi.
  assert (Hin : In (element (like_array a keep mem) (i * d_item a)) (elements (like_array a keep mem) n (d_item (like_array a keep mem)))).
  { unfold elements. apply in_map_iff. exists i. split; [reflexivity|apply zrange_In; lia]. }
  eapply Permutation_in in Hin; [|exact P]. apply in_map_iff in Hin. destruct Hin as (j & Ej & Hj). apply zrange_In in Hj. rewrite <- Ej. cbn [taken].
  specialize (Hone j Hj). unfold element in Hone. rewrite Sw in Hone.
  replace (bytes_at a (j * s)) with (rev (1 :: repeat 0 (Z.to_nat (d_item a) - 1))) by (rewrite <- Hone; apply rev_involutive).
  destruct (size_ok _ _ Hs) as [_ K]. cbn [rev]. clear - K. replace (d_item a - 1) with (Z.of_nat (Z.to_nat (d_item a) - 1)) by lia. generalize (Z.to_nat (d_item a) - 1)%nat as q. intros q.
  replace (rev (repeat 0 q)) with (repeat 0 q).
  - induction q as [|q IH]; [reflexivity|]. cbn [repeat app le_value fold_right]. change (fold_right _ 0 (repeat 0 q ++ [1])) with (le_value (repeat 0 q ++ [1])). rewrite IH.
    rewrite Nat2Z.inj_succ, Z.pow_succ_r by lia. lia.
  - induction q as [|q IH]; [reflexivity|]. cbn [repeat rev]. rewrite <- IH. apply repeat_cons.
Qed.
Print Assumptions C80_swapped_refuted.

(** float16 is accepted, and sorted by the bit patterns: -1.0 comes after 1.0 *)
Definition halves : nda := mkND 23 2 false false [2] [2] 0 (fun x => nth (Z.to_nat x) [0; 188; 0; 60] 0).
Theorem C80_half_refuted : forall F src dst ws pw junk kind keep, 5 < Z.of_nat F -> room src dst ws pw 2 ->
  (exists r, sort_call F src dst ws pw junk [OArr halves] kind keep NoWorkItem r) /\
  forall r, sort_call F src dst ws pw junk [OArr halves] kind keep NoWorkItem r -> exists r', r = Gives r' /\ vector r' 2 2 /\
    SFltb (decode16 (le_value (element halves 0))) (decode16 (le_value (element halves 2))) = true /\
    element r' 0 = element halves 2 /\ element r' 2 = element halves 0.
Proof.
  intros F src dst ws pw junk kind keep HF HR.
  destruct (numbers_alone F src dst ws pw junk halves 2 2 (GetKind kind QSORT) _ _ _ eq_refl (int_order 11) ltac:(lia) ltac:(lia) (room_ws src dst ws pw 2 ltac:(lia) HR)) as (m' & E & P & A).
  unfold sort_call. change (negb (type_ok (atop_of (d_dt halves)))) with false. change (accepted_stride (lay halves)) with (Some 2). change (array_length (lay halves)) with 2. cbn beta iota.
  split; [eauto|]. intros r (m1 & E1 & ->). unfold sorted_cells in E, E1. rewrite E in E1. injection E1 as <-.
  change (map (fun i => bytes_at halves (i * 2)) (zrange 0 2)) with [[0; 188]; [0; 60]] in P.
  assert (EI : items m' dst (dst + 2) = [m' dst; m' (dst + 1)]).
  { unfold items. rewrite zrange_cons, zrange_cons, zrange_nil by lia. reflexivity. }
  rewrite EI in P. specialize (A dst (dst + 1) ltac:(lia) ltac:(lia)).
  assert (X : m' dst = [0; 60] /\ m' (dst + 1) = [0; 188]).
  { apply Permutation_length_2_inv in P. destruct P as [P|P]; injection P as P1 P2; [|auto]. rewrite <- P1, <- P2 in A. discriminate A. }
  destruct X as [X0 X1]. eexists. split; [reflexivity|]. split; [repeat split; lia|]. split; [reflexivity|].
  pose proof (result_element dst halves keep m' 0 ltac:(cbn; lia) eq_refl) as R0. pose proof (result_element dst halves keep m' 1 ltac:(cbn; lia) eq_refl) as R1.
  rewrite Z.add_0_r, X0 in R0. rewrite X1 in R1. split; [exact (R0 eq_refl)|exact (R1 eq_refl)].
Qed.
Print Assumptions C80_half_refuted.

(** An array of several dimensions in C order is sorted as if it were flat: the rows are not sorted one by one, elements move between them. *)
Theorem C80_rows_refuted : forall F src dst ws pw junk a p q s kind keep signed w, d_dims a = [p; q] -> d_str a = [s * q; s] -> s = d_item a -> 2 <= p -> 2 <= q ->
  int_dtype (d_dt a) = Some (signed, w) -> d_item a = w / 8 -> d_swap a = false -> p * q < 2 ^ 63 -> 2 * (p * q) + 1 < Z.of_nat F -> room src dst ws pw (p * q) ->
  (exists i, 0 <= i < p * q /\ forall j, 0 <= j < q -> int_value signed w (le_value (element a (i * s))) < int_value signed w (le_value (element a (j * s)))) ->
  forall r, sort_call F src dst ws pw junk [OArr a] kind keep NoWorkItem r ->
  exists r', r = Gives r' /\ d_dims r' = [p; q] /\ d_str r' = [s * q; s] /\ ~ Permutation (elements r' q s) (elements a q s).
Proof.
  intros F src dst ws pw junk a p q s kind keep signed w Ed Es Ek Hp Hq Hi Hk Sw Hn HF HR (i & Hi0 & Hlt) r Hr.
  assert (Hs : has_size (d_dt a) (d_item a)) by (right; left; eauto). destruct (size_ok _ _ Hs) as [_ K].
  assert (Ns : ~ is_string_dtype (d_dt a)) by (intros [E|E]; rewrite E in Hi; discriminate).
  assert (El : array_length (lay a) = p * q) by (unfold array_length, lay; cbn [dims]; rewrite Ed; cbn [fold_left]; lia).
  assert (CC : is_c_contiguous (lay a) = true).
  { unfold is_c_contiguous, lay. cbn [dims strides itemsize]. rewrite Ed, Es. cbn [existsb rev app c_contig]. replace (s =? d_item a) with true by lia. replace (s * q =? d_item a * q) with true by (rewrite Ek; lia). rewrite !orb_true_r. reflexivity. }
  assert (Ea : accepted_stride (lay a) = Some s).
  { unfold accepted_stride. destruct (GetStridesAndContig (lay a)) as [dir st] eqn:E. rewrite CC. cbn [negb]. rewrite andb_false_r. f_equal. unfold GetStridesAndContig, lay in E. cbn [strides dims] in E. rewrite Es in E.
    cbn [last] in E. destruct (Z.eqb_spec s (s * q)); [nia|]. replace (Z.abs s <? Z.abs (s * q)) with true in E by nia. injection E as _ <-. reflexivity. }
  destruct (call_result F src dst ws pw junk a (p * q) s kind keep NoWorkItem r El Ea Hs ltac:(tauto) ltac:(nia) HF HR) as (mem & -> & (_ & _ & _ & P & A)); [discriminate|exact Hr|].
  eexists. split; [reflexivity|]. split; [exact Ed|]. split.
  { cbn [like_array d_str]. rewrite CC, orb_true_r, Ed, <- Ek. cbn [c_strides fold_left]. f_equal; [|f_equal; lia]. destruct q; reflexivity. }
  change (d_item (like_array a keep mem)) with (d_item a) in P, A. rewrite <- Ek in P, A. cbn [taken] in P. rewrite (unswapped a _ _ Sw) in P. set (r' := like_array a keep mem) in *.
  unfold may_precede in A. rewrite Hi in A. intros P2.
  (* the first element of the result is least *)
  assert (Hin : In (element a (i * s)) (elements r' (p * q) s)).
  { eapply Permutation_in; [apply Permutation_sym; exact P|]. unfold elements. apply in_map_iff. exists i. split; [reflexivity|apply zrange_In; lia]. }
  unfold elements in Hin at 1. apply in_map_iff in Hin. destruct Hin as (x & Ex & Hx). apply zrange_In in Hx.
  assert (L0 : int_value signed w (le_value (element r' (0 * s))) <= int_value signed w (le_value (element a (i * s)))).
  { rewrite <- Ex. destruct (Z.eq_dec x 0) as [->|]; [lia|]. apply A; lia. }
  assert (H0 : In (element r' (0 * s)) (elements a q s)).
  { eapply Permutation_in; [exact P2|]. unfold elements. apply in_map_iff. exists 0. split; [reflexivity|apply zrange_In; lia]. }
  unfold elements in H0. apply in_map_iff in H0. destruct H0 as (j & Ej & Hj). apply zrange_In in Hj. specialize (Hlt j Hj). rewrite Ej in Hlt. lia.
Qed.
Print Assumptions C80_rows_refuted.

(** What is refused: another number of arguments, an argument that is not an array, complex, object, void and date dtypes, layouts GetStridesAndContig does not take (C45) *)
Theorem C80_refused : forall F src dst ws pw junk kind keep h r,
  (forall args, length args <> 1%nat -> sort_call F src dst ws pw junk args kind keep h r -> r = Refused) /\
  (forall x, (forall a, x <> OArr a) -> sort_call F src dst ws pw junk [x] kind keep h r -> r = Refused) /\
  (forall a, In (d_dt a) [14; 15; 16; 17; 20; 21; 22] -> sort_call F src dst ws pw junk [OArr a] kind keep h r -> r = Refused) /\
  (forall a, accepted_stride (lay a) = None -> sort_call F src dst ws pw junk [OArr a] kind keep h r -> r = Refused).
Proof.
  intros. split; [|split; [|split]].
  - intros [|x [|y l]] Hl H; try exact H; [contradiction|]. destruct x; exact H.
  - intros x Hx H. destruct x; try exact H. exfalso. exact (Hx _ eq_refl).
  - intros a Hd H. cbn [sort_call] in H. cbn [In] in Hd. destruct Hd as [E|[E|[E|[E|[E|[E|[E|[]]]]]]]]; rewrite <- E in H; exact H.
  - intros a Ha H. cbn [sort_call] in H. rewrite Ha in H. destruct (negb _); exact H.
Qed.
Print Assumptions C80_refused.

(** the hypotheses: a field of 100000 records of 12 bytes (alone), and a contiguous vector of 100000 doubles (threads) *)
Example C80_nonvacuous : let a := mkND 12 8 false false [100000] [12] 0 (fun x => x mod 256) in
  vector a 100000 12 /\ has_size (d_dt a) (d_item a) /\ room 0 200000 1000000 2000000 100000 /\ 2 * 100000 + 1 < 2 ^ 20.
Proof. split; [repeat split; lia|]. split; [right; right; right; left; split; reflexivity|]. split; [|lia]. unfold room, disjoint, AllocChunk, NumCores. change (100000 / (8 * 2)) with 6250. lia. Qed.
