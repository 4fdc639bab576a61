(** ArgHook_Props.v - C70: np.argsort and np.lexsort after initialize(). *)
From Coq Require Import SpecFloat Sorted.
From Verif Require Import Base Threads_Model Jobs_Model Sort_Model SortCmp_Model ParSort_Model SortHook_Model Kernel_Model.
From Verif Require Import Sort_Base_Proofs Sort_Insert_Proofs Sort_Merge_Proofs SortCmp_Proofs Sort_Merge_Base_Proofs Sort_Props ParSort_Proofs ParSort_Tree_Proofs ParSort_Props ParArg_Props LexCall_Model LexCall_Props ArgHook_Model.

(** * Specification *)
(** a row of n items of a bool, integer, float32 or float64 array, in any byte order, at any distance *)
Definition number_row (n : Z) (a : arr) : Prop := 0 <= a_dt a <= 12 /\ a_item a = dtype_size (a_dt a) /\ a_len a = n.
(** the row numbers in [out] put the values of [a] in ascending order, NaNs last; for a stable kind equal values stay in the order of [inp] *)
Definition ascending_rows (k : np_kind) (a : arr) (inp out : list Z) : Prop :=
  match k with
  | Stable => stably_sorted [values a] inp out
  | _ => Permutation out inp /\ StronglySorted (fun x y => key_lt (values a) y x = false) out
  end.
(** NumPy's own functions do that *)
Definition numpy_sorts (start n : Z) (old : arr -> np_kind -> (Z -> Z) -> (Z -> Z) -> Prop) : Prop :=
  forall a k (m m' : Z -> Z), number_row n a -> native a -> old a k m m' -> ascending_rows k a (items m start (start + n)) (items m' start (start + n)).

(** * What the function is given *)
Lemma item_pos n a : number_row n a -> 0 < a_item a.
Proof.
  intros (H1 & H2 & _). rewrite H2. assert (D : a_dt a = 0 \/ a_dt a = 1 \/ a_dt a = 2 \/ a_dt a = 3 \/ a_dt a = 4 \/ a_dt a = 5 \/ a_dt a = 6 \/ a_dt a = 7 \/ a_dt a = 8 \/ a_dt a = 9 \/ a_dt a = 10 \/ a_dt a = 11 \/ a_dt a = 12) by lia.
  repeat (destruct D as [->|D]; [vm_compute; reflexivity|]). rewrite D. reflexivity.
Qed.
Lemma buffer_row n mis a : number_row n a -> number_row n (numpy_buffer mis a) /\ native (numpy_buffer mis a) /\ a_dt (numpy_buffer mis a) = a_dt a.
Proof.
  intros (H1 & H2 & H3). unfold numpy_buffer. destruct (mis || a_swap a || _) eqn:E; cbn; [repeat split; cbn; auto; lia|].
  apply orb_false_iff in E. destruct E as [E _]. apply orb_false_iff in E. destruct E as [_ E]. repeat split; auto; lia.
Qed.
Lemma zrange_nth a b i d : (i < Z.to_nat (b - a))%nat -> nth i (zrange a b) d = a + Z.of_nat i.
Proof.
  unfold zrange. generalize (Z.to_nat (b - a)). intros k. revert a i. induction k as [|k IH]; intros a i Hi; [lia|]. destruct i as [|i]; cbn; [lia|]. rewrite IH by lia. lia.
Qed.
Lemma rev_zrange (f : Z -> Z) k : rev (map f (zrange 0 (Z.of_nat k))) = map (fun j => f (Z.of_nat k - 1 - j)) (zrange 0 (Z.of_nat k)).
Proof.
  rewrite <- map_rev. replace (rev (zrange 0 (Z.of_nat k))) with (map (fun j => Z.of_nat k - 1 - j) (zrange 0 (Z.of_nat k))); [now rewrite map_map|].
  apply nth_ext with (d := 0) (d' := 0); [now rewrite rev_length, map_length|]. intros i Hi. rewrite map_length, zrange_length in Hi.
  rewrite rev_nth by (rewrite zrange_length; lia). rewrite (nth_indep _ 0 (Z.of_nat k - 1 - 0)) by (rewrite map_length, zrange_length; lia).
  rewrite (map_nth (fun j => Z.of_nat k - 1 - j)), !zrange_nth, zrange_length by (rewrite ?zrange_length; lia). lia.
Qed.
Lemma buffer_bytes n mis a r : number_row n a -> bytes_of (numpy_buffer mis a) 0 (a_item a) r = bytes_of a 0 (a_item a) r.
Proof.
  intros Ha. pose proof (item_pos n a Ha) as Hi. unfold numpy_buffer. destruct (mis || a_swap a || _) eqn:E; [|reflexivity].
  unfold bytes_of. cbn [a_swap a_off a_stride a_bytes].
  assert (Q : forall j, In j (zrange 0 (a_item a)) -> (0 + r * a_item a + 0 + j) / a_item a = r /\ (0 + r * a_item a + 0 + j) mod a_item a = j).
  { intros j Hj. apply zrange_In in Hj. replace (0 + r * a_item a + 0 + j) with (j + r * a_item a) by lia. rewrite Z.div_add, Z.mod_add, Z.div_small, Z.mod_small by lia. lia. }
  destruct (a_swap a).
  - pose proof (rev_zrange (fun j => a_bytes a (a_off a + r * a_stride a + 0 + j)) (Z.to_nat (a_item a))) as R. rewrite Z2Nat.id in R by lia. rewrite R.
    apply map_ext_in. intros j Hj. destruct (Q j Hj) as [-> ->]. f_equal. lia.
  - apply map_ext_in. intros j Hj. destruct (Q j Hj) as [-> ->]. f_equal. lia.
Qed.
Lemma buffer_values n mis a : number_row n a -> same_key (values (numpy_buffer mis a)) (values a).
Proof.
  intros Ha. pose proof (fun r => buffer_bytes n mis a r Ha) as B. destruct (buffer_row n mis a Ha) as ((H1 & H2 & _) & _ & E). destruct Ha as (A1 & A2 & _).
  assert (EI : a_item (numpy_buffer mis a) = a_item a) by (rewrite H2, E; auto). intros r. unfold values, dtype_in. rewrite E, EI.
  assert (N : a_dt a <> 18 /\ a_dt a <> 19) by lia. cbv zeta.
  destruct (existsb _ [1; 3; 5; 7; 9]); [cbv beta iota; now rewrite !B|]. destruct (existsb _ [23]); [cbv beta iota; now rewrite !B|]. destruct (existsb _ [11]); [cbv beta iota; now rewrite !B|]. destruct (existsb _ [12]); [cbv beta iota; now rewrite !B|].
  destruct (existsb _ [13]); [cbv beta iota; now rewrite !B|]. cbn [existsb]. replace (a_dt a =? 18) with false by lia. replace (a_dt a =? 19) with false by lia. cbn [orb]. cbv iota beta. now rewrite !B.
Qed.

(** * One call of the function *)
Lemma buffer_column n mis a rows : number_row n a -> SortIndex_column rows (Some (numpy_buffer mis a)) = Some (col_of rows (reads (numpy_buffer mis a))).
Proof.
  intros Ha. destruct (buffer_row n mis a Ha) as (_ & Hs & E). destruct Ha as (A1 & A2 & _). cbn [SortIndex_column]. unfold native in Hs. unfold reads. rewrite E, Hs.
  assert (D : atop_of (a_dt a) =? 11 = false).
  { assert (D : a_dt a = 0 \/ a_dt a = 1 \/ a_dt a = 2 \/ a_dt a = 3 \/ a_dt a = 4 \/ a_dt a = 5 \/ a_dt a = 6 \/ a_dt a = 7 \/ a_dt a = 8 \/ a_dt a = 9 \/ a_dt a = 10 \/ a_dt a = 11 \/ a_dt a = 12) by lia.
    repeat (destruct D as [->|D]; [reflexivity|]). rewrite D. reflexivity. }
  rewrite D. destruct (kind_of _); reflexivity.
Qed.
Lemma number_row_1d n a : number_row n a -> a_dt a <= 13 -> array_1d (a_len a) (mkArr (a_dt a) (a_item a) 1 (a_len a) (a_off a) (a_stride a) false (a_swap a) (a_bytes a)).
Proof. intros Ha _. pose proof (item_pos n a Ha). destruct Ha as (A1 & A2 & _). unfold array_1d. cbn. repeat split; auto. discriminate. Qed.
Lemma reads_buffer n mis a : number_row n a -> same_key (reads (numpy_buffer mis a)) (values a).
Proof.
  intros Ha. destruct (buffer_row n mis a Ha) as (Hb & Hs & E). pose proof (buffer_values n mis a Ha) as V. set (b := numpy_buffer mis a) in *. clearbody b.
  pose proof (number_row_1d n b Hb ltac:(destruct Hb; lia)) as A1. intros r. specialize (V r).
  assert (SD : sortable_dtype (a_dt b)) by (destruct Hb; left; lia).
  pose proof (reads_values _ _ A1 (or_introl SD) Hs r) as R.
  change (reads (mkArr (a_dt b) (a_item b) 1 (a_len b) (a_off b) (a_stride b) false (a_swap b) (a_bytes b))) with (reads b) in R.
  change (values (mkArr (a_dt b) (a_item b) 1 (a_len b) (a_off b) (a_stride b) false (a_swap b) (a_bytes b))) with (values b) in R.
  destruct (reads b), (values b), (values a); try contradiction; try (etransitivity; eassumption). destruct R as [-> ->], V as [-> ->]. auto.
Qed.
Lemma row_not_string n mis a : number_row n a -> not_string (reads (numpy_buffer mis a)).
Proof.
  intros Ha. destruct (buffer_row n mis a Ha) as (_ & _ & E). destruct Ha as [A1 _]. unfold reads. rewrite E.
  assert (D : a_dt a = 0 \/ a_dt a = 1 \/ a_dt a = 2 \/ a_dt a = 3 \/ a_dt a = 4 \/ a_dt a = 5 \/ a_dt a = 6 \/ a_dt a = 7 \/ a_dt a = 8 \/ a_dt a = 9 \/ a_dt a = 10 \/ a_dt a = 11 \/ a_dt a = 12) by lia.
  repeat (destruct D as [->|D]; [exact I|]). rewrite D. exact I.
Qed.
Lemma nonan_same n k k' : same_key k k' -> key_nonan n k' -> key_nonan n k.
Proof. intros H. destruct k as [|L v|v]; cbn; auto. intros H' r Hr. specialize (H r). destruct k'; try contradiction. rewrite H. now apply H'. Qed.

Section Call.
  Variables (F : nat) (start pw n : Z).
  Hypothesis Hn : 0 <= n < 2 ^ 63.
  Hypothesis HF : 2 * n + 1 < Z.of_nat F.
  Hypothesis HL : arg_layout start pw n.
  Hypothesis Hap : apart start n pw.

  Lemma column_call_any k mode h (m m' : Z -> Z) : not_string k -> (mode = MERGE -> key_nonan n k) ->
    Permutation (seg m start (start + n)) (zrange 0 n) -> column_call F mode (col_of n k) start pw n h m m' ->
    rel_of (klt k) mode (seg m start (start + n)) (seg m' start (start + n)) /\ sorted_seg (klt k) m' start (start + n).
  Proof.
    intros Hs Hnan Hp Hc. assert (Hk : key_wf n k) by (destruct k; [exact I|contradiction|exact I]).
    destruct h as [|T zz sched]; cbn [column_call] in Hc.
    - assert (W : wp (allowed true start n pw) (sort_index F mode (col_of n k) start n pw)
         (fun _ m2 => rel_of (klt k) mode (seg m start (start + n)) (seg m2 start (start + n)) /\ sorted_seg (klt k) m2 start (start + n)) m).
      { apply (sort_index_gen n k F mode (conj Hk Hnan)); try lia.
        - unfold disjoint, apart in *. lia.
        - intros x Hx. now apply allowed_arr.
        - intros x Hx. now apply allowed_pw.
        - exact (perm_rows n start m Hp).
        - intros m2 A1 A2 A3. auto. }
      apply wp_exec in W. destruct W as ([] & m2 & He & W). apply exec_weaken in He. rewrite He in Hc. injection Hc as <-. exact W.
    - destruct Hc as (Hb & HT & Hret & ->). unfold WORK_ITEM_BIG, WORK_ITEM_CHUNK in Hb.
      destruct (argsort_result F mode k start pw n T zz m (conj Hk Hnan) ltac:(lia) HF HL Hp HT sched Hret) as (H1 & H2 & _). auto.
  Qed.

  Variables (enabled : bool) (old : arr -> np_kind -> (Z -> Z) -> (Z -> Z) -> Prop).
  Hypothesis Hold : numpy_sorts start n old.

  (** filters of equivalents, for every row number *)
  Lemma srel_of_stable a inp out : not_string (values a) -> stably_sorted [values a] inp out ->
    srel (klt (values a)) inp out /\ StronglySorted (le (klt (values a))) out.
  Proof.
    intros Hs (S1 & S2 & S3). assert (EK : forall x y, klt (values a) x y = key_lt (values a) x y) by (destruct (values a); [reflexivity|contradiction|reflexivity]).
    split; [split; [exact S1|]|].
    - intros x. pose proof (sw_klt (values a)) as SW.
      assert (ET : forall x y, tied [values a] x y = eqv (klt (values a)) x y) by (intros u w; unfold tied, eqv; cbn; now rewrite !EK, andb_true_r).
      destruct (existsb (eqv (klt (values a)) x) inp) eqn:EX.
      + apply existsb_exists in EX. destruct EX as (y & Hy & EX).
        assert (EE : forall z, eqv (klt (values a)) x z = tied [values a] y z).
        { intros z. rewrite ET. unfold eqv in *. apply eq_true_iff_eq. rewrite !andb_true_iff, !negb_true_iff in *. destruct EX as [X1 X2].
          split; intros [Z1 Z2]; split; (eapply (sw_ntrans _ SW); eassumption). }
        rewrite !(filter_ext _ _ EE). now apply S3.
      + assert (N : forall l, (forall z, In z l -> In z inp) -> filter (eqv (klt (values a)) x) l = []).
        { induction l as [|z l IH]; intros Hl; cbn; [reflexivity|]. destruct (eqv _ x z) eqn:EZ; [|apply IH; intros; apply Hl; now right].
          assert (existsb (eqv (klt (values a)) x) inp = true) by (apply existsb_exists; exists z; split; [apply Hl; now left|exact EZ]). congruence. }
        rewrite !N; [reflexivity|auto|]. intros z Hz. eapply Permutation_in; eauto.
    - clear -S2 EK. induction S2 as [|x l _ IH H]; constructor; [exact IH|]. rewrite Forall_forall in *. intros y Hy. specialize (H y Hy). cbn in H. unfold le. rewrite EK.
      apply orb_false_iff in H. apply H.
  Qed.

  Lemma klt_ext k k' : not_string k -> same_key k k' -> forall x y, klt k x y = klt k' x y.
  Proof.
    intros Hs H x y. pose proof (same_key_lt k k' x y H) as E. specialize (H 0). destruct k, k'; try contradiction; exact E.
  Qed.
  Lemma values_not_string a : number_row n a -> not_string (values a).
  Proof. intros Ha. pose proof (row_not_string n false a Ha) as N. pose proof (reads_buffer n false a Ha 0) as R. destruct (reads _), (values a); cbn in *; auto. Qed.

  Lemma hook_step k mis a h (m m' : Z -> Z) : number_row n a -> (k = Stable -> enabled = true -> key_nonan n (values a)) ->
    Permutation (seg m start (start + n)) (zrange 0 n) ->
    AtopArgSort F enabled start pw old k (numpy_buffer mis a) n h m m' ->
    match k with Stable => srel (klt (values a)) (seg m start (start + n)) (seg m' start (start + n)) | _ => Permutation (seg m' start (start + n)) (seg m start (start + n)) end /\
    StronglySorted (le (klt (values a))) (seg m' start (start + n)).
  Proof.
    intros Ha Hnan Hp Hc. pose proof (values_not_string a Ha) as NS. pose proof (reads_buffer n mis a Ha) as SK. pose proof (row_not_string n mis a Ha) as NS'.
    destruct (buffer_row n mis a Ha) as (Hb & Hbn & Ed). pose proof (buffer_values n mis a Ha) as BV.
    assert (O : old (numpy_buffer mis a) k m m' -> match k with Stable => srel (klt (values a)) (seg m start (start + n)) (seg m' start (start + n)) | _ => Permutation (seg m' start (start + n)) (seg m start (start + n)) end /\
       StronglySorted (le (klt (values a))) (seg m' start (start + n))).
    { intros Ho. apply (Hold _ _ _ _ Hb Hbn) in Ho. unfold ascending_rows in Ho. change (@items Z) with (@seg Z) in Ho.
      assert (Q : Permutation (seg m' start (start + n)) (seg m start (start + n)) /\ StronglySorted (fun x y => key_lt (values (numpy_buffer mis a)) y x = false) (seg m' start (start + n)) ->
         Permutation (seg m' start (start + n)) (seg m start (start + n)) /\ StronglySorted (le (klt (values a))) (seg m' start (start + n))).
      { intros [Q1 Q2]. split; [exact Q1|]. clear -Q2 BV NS. induction Q2 as [|x l _ IH H]; constructor; [exact IH|]. rewrite Forall_forall in *. intros y Hy. specialize (H y Hy).
        unfold le. rewrite (same_key_lt _ _ _ _ BV) in H. destruct (values a); [exact H|contradiction|exact H]. }
      destruct k; auto. apply srel_of_stable; [exact NS|]. apply (stably_same [values (numpy_buffer mis a)]); [repeat constructor; exact BV|exact Ho]. }
    unfold AtopArgSort in Hc. destruct (enabled && _) eqn:EN; [|auto]. rewrite (buffer_column n) in Hc by exact Ha.
    apply andb_true_iff in EN. destruct EN as [EN _].
    destruct (column_call_any (reads (numpy_buffer mis a)) (mode_of k) h m m' NS') as [R1 R2]; [|exact Hp|exact Hc|].
    { intros EM. apply (nonan_same _ _ _ SK). apply Hnan; [|exact EN]. destruct k; [discriminate|discriminate|reflexivity]. }
    apply sorted_seg_iff in R2. pose proof (klt_ext _ _ NS' SK) as KE. split.
    - destruct k; cbn [mode_of rel_of] in R1; [exact R1|exact R1|]. destruct R1 as [R1 R3]. split; [exact R1|]. intros x. assert (EE : forall y, eqv (klt (values a)) x y = eqv (klt (reads (numpy_buffer mis a))) x y) by (intros y; unfold eqv; now rewrite !KE). rewrite !(filter_ext _ _ EE). apply R3.
    - clear -R2 KE. induction R2 as [|x l _ IH H]; constructor; [exact IH|]. rewrite Forall_forall in *. intros y Hy. unfold le. rewrite <- KE. exact (H y Hy).
  Qed.

  Lemma filled (m m1 : Z -> Z) : exec (inr_ start (start + n)) (fill_range F start n) m = Finished tt m1 -> seg m1 start (start + n) = zrange 0 n.
  Proof.
    intros E. pose proof (fill_wp F (inr_ start (start + n)) start n m ltac:(lia) ltac:(intros x Hx; unfold inr_; lia)) as W.
    apply wp_exec in W. destruct W as ([] & m2 & E2 & H2 & _). rewrite E in E2. injection E2 as ->. exact H2.
  Qed.

  Lemma columns_ok : forall keys done (m m' : Z -> Z),
    (forall a mis h, In (a, mis, h) keys -> number_row n a /\ (enabled = true -> key_nonan n (values a))) ->
    stable_ (map klt done) (zrange 0 n) (seg m start (start + n)) ->
    np_columns F enabled start pw old keys n m m' ->
    stable_ (map klt (rev (map (fun k => values (fst (fst k))) keys) ++ done)) (zrange 0 n) (seg m' start (start + n)).
  Proof.
    induction keys as [|[[a mis] h] keys IH]; intros done m m' Hk Hd Hc; cbn [np_columns] in Hc.
    - now subst m'.
    - destruct Hc as (m1 & Hc1 & Hc2). cbn [map rev fst]. rewrite <- app_assoc.
      destruct (Hk a mis h (or_introl eq_refl)) as [K1 K2]. apply (IH (values a :: done) m1); [intros b mi hh Hb; apply (Hk b mi hh); now right| |exact Hc2].
      destruct (hook_step Stable mis a h m m1 K1 ltac:(auto)) as [R1 R2]; [apply Hd|exact Hc1|]. cbn [map]. apply (stable_step _ _ _ (seg m start (start + n))); auto. apply sw_klt.
  Qed.
End Call.

(** * C70 *)
(** np.argsort of a row, any kind, on any threads with any schedule, hooks on or off: NumPy's answer.  A stable kind with NaNs is excepted. *)
Theorem C70_argsort_partial F enabled start pw old k mis a n h (m m' : Z -> Z) :
  number_row n a -> (k = Stable -> enabled = true -> key_nonan n (values a)) ->
  0 <= n < 2 ^ 63 -> 2 * n + 1 < Z.of_nat F -> arg_layout start pw n -> apart start n pw -> numpy_sorts start n old ->
  np_argsort F enabled start pw old k mis a n h m m' ->
  ascending_rows k a (zrange 0 n) (items m' start (start + n)).
Proof.
  intros Ha Hnan Hn HF HL Hap Hold (m1 & Hf & Hc). apply (filled F start n Hn HF) in Hf.
  destruct (hook_step F start pw n Hn HF HL Hap enabled old Hold k mis a h m1 m' Ha Hnan) as [R1 R2]; [rewrite Hf; apply Permutation_refl|exact Hc|].
  rewrite Hf in R1. pose proof (values_not_string n a Ha) as NS. change (items m' start (start + n)) with (seg m' start (start + n)).
  assert (Q : StronglySorted (fun x y => key_lt (values a) y x = false) (seg m' start (start + n))).
  { clear -R2 NS. induction R2 as [|x l _ IH H]; constructor; [exact IH|]. rewrite Forall_forall in *. intros y Hy. specialize (H y Hy). destruct (values a); [exact H|contradiction|exact H]. }
  unfold ascending_rows. destruct k; auto.
  apply (stable_keys n); [intros x [<-|[]]; destruct (values a); [exact I|contradiction|exact I]|intros x Hx; apply zrange_In in Hx; lia|].
  cbn [rev app map]. apply (stable_step _ _ _ (zrange 0 n)); auto; [apply sw_klt|apply stable_nil].
Qed.

(** np.lexsort of any number of keys, each by the hook or by NumPy, alone or on threads: NumPy's answer.  NaN keys are excepted. *)
Theorem C70_lexsort_partial F enabled start pw old keys n (m m' : Z -> Z) :
  (forall a mis h, In (a, mis, h) keys -> number_row n a /\ (enabled = true -> key_nonan n (values a))) ->
  0 <= n < 2 ^ 63 -> 2 * n + 1 < Z.of_nat F -> arg_layout start pw n -> apart start n pw -> numpy_sorts start n old ->
  np_lexsort F enabled start pw old keys n m m' ->
  stably_sorted (map (fun k => values (fst (fst k))) keys) (zrange 0 n) (items m' start (start + n)).
Proof.
  intros Hk Hn HF HL Hap Hold (m1 & Hf & Hc). apply (filled F start n Hn HF) in Hf.
  pose proof (columns_ok F start pw n Hn HF HL Hap enabled old Hold keys [] m1 m' Hk ltac:(rewrite Hf; apply stable_nil) Hc) as S. rewrite app_nil_r in S.
  apply (stable_keys n); [|intros x Hx; apply zrange_In in Hx; lia|exact S].
  intros k Hin. apply in_map_iff in Hin. destruct Hin as ([[a mis] h] & <- & Hin). destruct (Hk a mis h Hin) as [K1 _]. cbn [fst]. pose proof (values_not_string n a K1). destruct (values a); [exact I|contradiction|exact I].
Qed.

(** the call in the calling thread ends normally and touches the index cells and half as much workspace only, for every row the hook sorts: any kind
    of the types of 32 or 64 bits, quicksort and heapsort of the others *)
Definition sorted_by_hook (k : np_kind) (a : arr) : Prop := k <> Stable \/ 5 <= a_dt a.
Theorem C70_argsort_ends F start pw old k mis a n (m : Z -> Z) :
  number_row n a -> sorted_by_hook k a -> (k = Stable -> key_nonan n (values a)) ->
  0 <= n < 2 ^ 63 -> 2 * n + 1 < Z.of_nat F -> apart start n pw ->
  exists c m', SortIndex_column n (Some (numpy_buffer mis a)) = Some c /\
    exec (allowed true start n pw) (fill_range F start n ;; sort_index F (mode_of k) c start n pw) m = Finished tt m' /\
    (forall x, allowed true start n pw x = false -> m' x = m x) /\
    np_argsort F true start pw old k mis a n Alone m m'.
Proof.
  intros Ha Hh Hnan Hn HF Hap. pose proof (buffer_column n mis a n Ha) as EC. exists (col_of n (reads (numpy_buffer mis a))).
  pose proof (reads_buffer n mis a Ha) as SK. pose proof (row_not_string n mis a Ha) as NS. set (kk := reads (numpy_buffer mis a)) in *.
  assert (Hfit : key_fits n (mode_of k) kk).
  { split; [destruct kk; [exact I|contradiction|exact I]|]. intros E. apply (nonan_same _ _ _ SK), Hnan. destruct k; [discriminate|discriminate|reflexivity]. }
  pose proof (fill_wp F (inr_ start (start + n)) start n m ltac:(lia) ltac:(intros x Hx; unfold inr_; lia)) as W.
  apply wp_exec in W. destruct W as ([] & m1 & E1 & H1 & H2).
  assert (W : wp (allowed true start n pw) (sort_index F (mode_of k) (col_of n kk) start n pw) (fun _ m2 => forall x, allowed true start n pw x = false -> m2 x = m1 x) m1).
  { apply (sort_index_gen n kk F (mode_of k) Hfit); try lia.
    - unfold disjoint, apart in *. lia.
    - intros x Hx. now apply allowed_arr.
    - intros x Hx. now apply allowed_pw.
    - apply (perm_rows n start m1). change (items m1 start (start + n)) with (seg m1 start (start + n)). rewrite H1. apply Permutation_refl.
    - intros m2 A1 A2 A3. intros x Hx. exact (same_out_allowed _ _ _ _ _ A3 x Hx). }
  apply wp_exec in W. destruct W as ([] & m2 & E2 & H3). exists m2. split; [exact EC|]. split; [|split].
  - assert (G : forall (p f : prog Z unit) (m m1 : Z -> Z), exec (inr_ start (start + n)) p m = Finished tt m1 -> exec (allowed true start n pw) (p ;; f) m = exec (allowed true start n pw) f m1).
    { clear. assert (A : forall x, inr_ start (start + n) x = true -> allowed true start n pw x = true) by (intros x Hx; unfold allowed; now rewrite Hx).
      induction p as [[]|x g IH|x v p IH| |]; intros f m m1; cbn; try discriminate; [now intros [= <-]| |]; destruct (inr_ start (start + n) x) eqn:E; try discriminate; rewrite (A x E); auto. }
    rewrite (G _ _ _ _ E1). exact E2.
  - intros x Hx. rewrite H3 by exact Hx. apply H2. apply not_allowed in Hx. destruct Hx. lia.
  - exists m1. split; [exact E1|]. unfold AtopArgSort. rewrite EC.
    assert (C : (4 <? atop_of (a_dt (numpy_buffer mis a))) || match k with Stable => false | _ => true end = true).
    { destruct (buffer_row n mis a Ha) as (_ & _ & ->). destruct Hh as [Hh|Hh]; [destruct k; [apply orb_true_r|apply orb_true_r|congruence]|].
      destruct Ha as [A1 _]. assert (D : a_dt a = 5 \/ a_dt a = 6 \/ a_dt a = 7 \/ a_dt a = 8 \/ a_dt a = 9 \/ a_dt a = 10 \/ a_dt a = 11 \/ a_dt a = 12) by lia.
      repeat (destruct D as [->|D]; [reflexivity|]). rewrite D. reflexivity. }
    rewrite C. cbn [andb]. cbn [column_call]. now apply exec_weaken in E2.
Qed.

(** what is not the hook's goes to NumPy's own function: stable kinds of 8 and 16 bits, and everything while AtopEnabled is off *)
Theorem C70_left_to_numpy F enabled start pw old k a n h (m m' : Z -> Z) :
  number_row n a -> enabled = false \/ (k = Stable /\ a_dt a <= 4) -> AtopArgSort F enabled start pw old k a n h m m' <-> old a k m m'.
Proof.
  intros [A1 _] H. unfold AtopArgSort. assert (C : enabled && ((4 <? atop_of (a_dt a)) || match k with Stable => false | _ => true end) = false).
  { destruct H as [->|[-> H]]; [reflexivity|]. assert (D : a_dt a = 0 \/ a_dt a = 1 \/ a_dt a = 2 \/ a_dt a = 3 \/ a_dt a = 4) by lia.
    repeat (destruct D as [->|D]; [apply andb_false_r|]). rewrite D. apply andb_false_r. }
  rewrite C. reflexivity.
Qed.

(** 1.0, 2.0, 4.0, ..., 64.0, NaN, 256.0, ...: np.argsort(kind='stable') puts the NaN before 256.0; NumPy puts it last *)
Definition nan_row : arr := mkArr 12 8 1 16 0 8 true false (fun x => let r := x / 8 in let b := if r =? 7 then 0x7ff8000000000000 else 0x3ff0000000000000 + r * 2 ^ 52 in (b / 256 ^ (x mod 8)) mod 256).
Theorem C70_nan_refuted : number_row 16 nan_row /\ forall old, exists m', np_argsort 100 true 0 16 old Stable false nan_row 16 Alone (fun _ => 0) m' /\
  m' 7 = 7 /\ m' 8 = 8 /\ key_lt (values nan_row) (m' 8) (m' 7) = true.
Proof.
  split; [split; cbn; [lia|split; reflexivity]|]. intros old.
  pose proof (fill_wp 100 (inr_ 0 (0 + 16)) 0 16 (fun _ => 0) ltac:(lia) ltac:(intros x Hx; unfold inr_; lia)) as W. apply wp_exec in W. destruct W as ([] & m1 & E1 & H1 & H2).
  remember (exec (fun _ => true) (fill_range 100 0 16 ;; sort_index 100 MERGE (col_of 16 (reads nan_row)) 0 16 16) (fun _ : Z => 0)) as o eqn:E.
  assert (H : match o with Finished _ m => (m 7 =? 7) && (m 8 =? 8) | _ => false end = true) by (rewrite E; vm_compute; reflexivity).
  assert (G : forall (p f : prog Z unit) (m m1 : Z -> Z), exec (inr_ 0 (0 + 16)) p m = Finished tt m1 -> exec (fun _ => true) (p ;; f) m = exec (fun _ => true) f m1).
  { clear. generalize (inr_ 0 (0 + 16)). intros ok. induction p as [[]|x g IH|x v p IH| |]; intros f m m1; cbn; try discriminate; [now intros [= <-]| |]; destruct (ok x); try discriminate; auto. }
  rewrite (G _ _ _ _ E1) in E. destruct o as [[] m'| |]; try discriminate. exists m'. apply andb_true_iff in H. destruct H as [Ha Hb]. apply Z.eqb_eq in Ha, Hb.
  split; [|rewrite Ha, Hb; repeat split; reflexivity]. exists m1. split; [exact E1|]. cbn [AtopArgSort]. unfold AtopArgSort.
  change (numpy_buffer false nan_row) with nan_row. change (SortIndex_column 16 (Some nan_row)) with (Some (col_of 16 (reads nan_row))). cbn. symmetry. exact E.
Qed.

(** the hypotheses hold: a byte-swapped, strided uint32 row 256, 1, 7; NumPy's own functions are never needed *)
Definition swapped3 : arr := mkArr 6 4 1 3 2 6 false true (fun x => nth (Z.to_nat (x - 2)) [0;0;1;0; 9;9; 0;0;0;1; 9;9; 0;0;0;7] 0).
Example C70_case : number_row 3 swapped3 /\ map (fun r => match values swapped3 with KInt v => v r | _ => -1 end) [0; 1; 2] = [256; 1; 7] /\
  arg_layout 0 10 3 /\ apart 0 3 10 /\ numpy_sorts 0 3 (fun _ _ _ _ => False) /\
  match exec (fun _ => true) (fill_range 50 0 3 ;; sort_index 50 MERGE (col_of 3 (reads (numpy_buffer false swapped3))) 0 3 10) (fun _ : Z => 0) with Finished _ m' => items m' 0 3 | _ => [] end = [1; 2; 0].
Proof.
  split; [split; cbn; [lia|split; reflexivity]|]. split; [vm_compute; reflexivity|]. split; [unfold arg_layout, disjoint; left; vm_compute; congruence|].
  split; [unfold apart; cbn; lia|]. split; [intros a k m m' _ _ []|]. vm_compute. reflexivity.
Qed.

Print Assumptions C70_argsort_partial.
Print Assumptions C70_lexsort_partial.
Print Assumptions C70_argsort_ends.
Print Assumptions C70_left_to_numpy.
Print Assumptions C70_nan_refuted.
