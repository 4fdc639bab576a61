(** IsSorted_Props.v - C39. *)
From Coq Require Import SpecFloat.
From Verif Require Import Base Threads_Model Threads_Proofs Threads_Counter_Proofs Jobs_Model Jobs_Proofs Jobs_Call_Proofs
  Sort_Model SortCmp_Model Sort_Base_Proofs SortCmp_Proofs Sort_Props IsSorted_Model.

Lemma scan_le t k : (scan t k <= k)%nat.
Proof. induction k as [|k IH]; cbn [scan]; [lia|]. destruct (t (Z.of_nat (S k))); lia. Qed.
(** where the loop stops: everything above passed the test, and the stop itself did not *)
Lemma scan_spec t k : (forall i, Z.of_nat (scan t k) < i <= Z.of_nat k -> t i = true) /\
  ((0 < scan t k)%nat -> t (Z.of_nat (scan t k)) = false).
Proof.
  induction k as [|k IH]; [cbn; split; intros; lia|]. cbn [scan]. destruct (t (Z.of_nat (S k))) eqn:E.
  - destruct IH as [A B]. split; [|exact B]. intros i Hi. destruct (Z.eq_dec i (Z.of_nat (S k))) as [->|]; [exact E|apply A; lia].
  - split; [intros; lia|intros _; exact E].
Qed.
Lemma scan_zero t k : scan t k = 0%nat <-> (forall i, 0 < i <= Z.of_nat k -> t i = true).
Proof.
  destruct (scan_spec t k) as [A B]. split.
  - intros E i Hi. apply A. rewrite E. lia.
  - intros H. destruct (Nat.eq_dec (scan t k) 0) as [E|E]; [exact E|]. exfalso.
    pose proof (scan_le t k). rewrite H in B by lia. discriminate B. lia.
Qed.

(** neighbours are in order *)
Definition pairs_ok {T} (ok : T -> T -> bool) (d : Z -> T) (st len : Z) : Prop :=
  forall i, st < i < st + len -> ok (d (i - 1)) (d i) = true.

Lemma IsSorted_pairs {T} (ge : T -> T -> bool) d st len : IsSorted_ ge d st len = true <-> pairs_ok (fun x y => ge y x) d st len.
Proof.
  unfold IsSorted_. rewrite Nat.eqb_eq, scan_zero. unfold pairs_ok. split.
  - intros H i Hi. specialize (H (i - st) ltac:(lia)). cbn in H. replace (st + (i - st)) with i in H by lia. exact H.
  - intros H i Hi. replace (st + i - 1) with (st + i - 1) by lia. apply (H (st + i)). lia.
Qed.

Definition ok_float {T} (val : T -> spec_float) (x y : T) : bool := nan_float val y || SFleb (val x) (val y).
Lemma IsSortedFloat_pairs {T} (val : T -> spec_float) d st len :
  IsSortedFloat val d st len = true <-> pairs_ok (ok_float val) d st len.
Proof.
  unfold IsSortedFloat. set (t1 := fun i => negb (SFeqb (val (d (st + i))) (val (d (st + i))))).
  set (t2 := fun i => SFleb (val (d (st + i - 1))) (val (d (st + i)))).
  set (k := Z.to_nat (len - 1)). rewrite Nat.eqb_eq, scan_zero. destruct (scan_spec t1 k) as [A B]. pose proof (scan_le t1 k) as C.
  unfold pairs_ok. split.
  - intros H i Hi. destruct (Z.le_gt_cases (i - st) (Z.of_nat (scan t1 k))) as [G|G].
    + specialize (H (i - st) ltac:(lia)). unfold t2 in H. replace (st + (i - st)) with i in H by lia. unfold ok_float. rewrite H. now rewrite orb_true_r.
    + specialize (A (i - st) ltac:(lia)). unfold t1 in A. replace (st + (i - st)) with i in A by lia. unfold ok_float, nan_float. now rewrite A.
  - intros H i Hi.
    (* going down from the last number, every pair passes *)
    set (s := scan t1 k) in *. clearbody s.
    assert (Hs : (0 < s)%nat) by lia. specialize (B Hs).
    assert (G : forall j, (j < s)%nat -> let x := Z.of_nat (s - j) in t2 x = true).
    { induction j as [|j IHj]; intros Hj; cbv zeta.
      - rewrite Nat.sub_0_r. specialize (H (st + Z.of_nat s) ltac:(lia)). unfold ok_float in H.
        replace (nan_float val (d (st + Z.of_nat s))) with false in H by (symmetry; exact B). exact H.
      - specialize (IHj ltac:(lia)). cbv zeta in IHj. specialize (H (st + Z.of_nat (s - S j)) ltac:(lia)). unfold ok_float in H.
        unfold t2. apply orb_true_iff in H. destruct H as [H|H]; [|exact H]. exfalso.
        apply nan_float_true in H. unfold t2 in IHj. replace (st + Z.of_nat (s - j) - 1) with (st + Z.of_nat (s - S j)) in IHj by lia.
        rewrite H, SFleb_nan_l in IHj. discriminate. }
    specialize (G (s - Z.to_nat i)%nat ltac:(lia)). cbv zeta in G. replace (Z.of_nat (s - (s - Z.to_nat i))) with i in G by lia. exact G.
Qed.

(** ** the chunked call: the flag ends up cleared exactly when some chunk, taken with the item before it, is out of order *)
Definition ext_start (st : Z) : Z := if negb (st =? 0) then st - 1 else st.
Definition ext_len (st len : Z) : Z := if negb (st =? 0) then len + 1 else len.

Lemma is_sorted_flag func n h r : 0 <= n -> is_sorted_call func n h r ->
  (r = true <-> forall st len, piece_of n h st len -> func (ext_start st) (ext_len st len) = true).
Proof.
  intros Hn (m' & Hc & ->). destruct h as [|T zz sched]; cbn [chunk_call piece_of] in *.
  - subst m'. unfold run_ops, is_sorted_prog. cbn. split.
    + intros H st len [-> ->]. unfold ext_start, ext_len. destruct (func _ _); [reflexivity|discriminate H].
    + intros H. specialize (H 0 n (conj eq_refl eq_refl)). unfold ext_start, ext_len in H. rewrite H. reflexivity.
  - destruct Hc as (HB & HT & Hret).
    set (bad := fun st len => negb (func (ext_start st) (ext_len st len))).
    destruct (jobs_rule_m (is_sorted_prog func) true ChunkMode n T zz (fun _ => true) HT (fun _ => false) (fun _ => True)
      (fun _ _ k l m => k = 0%nat \/ l = true \/ m 0 = false)
      (fun st len k => if Nat.eqb k 1 && bad st len then Some 0 else None)) with (sched := sched) (m' := m') as (_ & G1 & G2).
    + exact I.
    + auto.
    + intros w _. destruct (piece ChunkMode n w). intros; now left.
    + intros st len k l m1 m2 [H|[H|H]] Hm; [now left|right; now left|]. right. right. destruct (Hm 0) as [E|E]; congruence.
    + intros w k op l m Hw. destruct (piece ChunkMode n w) as [st len]. intros Hop _ Hl. cbv zeta.
      destruct k as [|[|k]]; cbn [is_sorted_prog nth_error] in Hop.
      * injection Hop as <-. cbn. split; [destruct (m 0); auto|]. split; intros a; discriminate.
      * injection Hop as <-. cbn [fst snd Nat.eqb andb]. destruct Hl as [Hl|Hl]; [discriminate|].
        unfold bad, ext_start, ext_len. destruct l.
        -- destruct (func _ _); cbn [negb].
           ++ split; [auto|]. split; intros a; discriminate.
           ++ split; [auto|]. split; [intros a v [= <- <-]; auto|]. intros a E. injection E as <-. reflexivity.
        -- destruct Hl as [Hl|Hl]; [discriminate|]. split; [auto|]. split; [discriminate|].
           intros a E. destruct (func _ _); [discriminate E|]. injection E as <-. exact Hl.
      * destruct k; discriminate.
    + exact Hret.
    + split.
      * intros H st len (w & Hw & -> & ->). destruct (func (ext_start (CH * w)) (ext_len (CH * w) (blen n w))) eqn:E; [reflexivity|exfalso].
        rewrite (G1 w 0) in H; [discriminate| |].
        -- unfold valid. unfold w0, tgt. lia.
        -- unfold cell_of. cbn [piece]. exists 1%nat. split; [cbn; lia|]. unfold bad. now rewrite E.
      * intros H. rewrite G2; [reflexivity|]. intros w Hw. unfold cell_of. unfold valid, w0, tgt in Hw. cbn [piece].
        intros (k & Hk & E). unfold bad in E. rewrite (H (CH * w) (blen n w)) in E by (exists w; split; [lia|auto]).
        rewrite andb_false_r in E. discriminate.
Qed.

Lemma pairs_chunks {T} (ok : T -> T -> bool) d n h : 0 <= n ->
  (pairs_ok ok d 0 n <-> forall st len, piece_of n h st len -> pairs_ok ok d (ext_start st) (ext_len st len)).
Proof.
  intros Hn. split.
  - intros H st len Hp i Hi. pose proof (piece_range n h st len Hn Hp). apply H. unfold ext_start, ext_len in Hi. destruct (st =? 0) eqn:E; cbn in Hi; lia.
  - intros H i Hi. destruct (piece_cover n h i ltac:(lia)) as (st & len & Hp & Hr).
    pose proof (piece_range n h st len Hn Hp). apply (H st len Hp i). unfold ext_start, ext_len. destruct (st =? 0) eqn:E; cbn; lia.
Qed.

Lemma pairs_up {T} (R : T -> T -> Prop) d n : (forall x y z, R x y -> R y z -> R x z) ->
  (forall i, 0 < i < n -> R (d (i - 1)) (d i)) -> forall i j, 0 <= i < j -> j < n -> R (d i) (d j).
Proof.
  intros Tr H i j Hi Hj.
  assert (G : forall k : nat, forall j, j = i + 1 + Z.of_nat k -> j < n -> R (d i) (d j)).
  { induction k as [|k IH]; intros j' -> Hj'.
    - replace (i + 1 + Z.of_nat 0) with (i + 1) in * by lia. replace i with (i + 1 - 1) at 1 by lia. apply H. lia.
    - apply (Tr _ (d (i + 1 + Z.of_nat k))); [apply IH; [reflexivity|lia]|].
      replace (i + 1 + Z.of_nat k) with (i + 1 + Z.of_nat (S k) - 1) by lia. apply H. lia. }
  apply (G (Z.to_nat (j - i - 1))); lia.
Qed.

(** * C39 *)
(** integers and bool: the answer is yes exactly when the array ascends, however it was chunked and scheduled *)
Theorem C39_is_sorted_int (d : Z -> Z) n h r : 0 <= n -> is_sorted_call (IsSorted_ (fun x y => y <=? x) d) n h r ->
  (r = true <-> forall i j, 0 <= i <= j -> j < n -> d i <= d j).
Proof.
  intros Hn Hc. rewrite (is_sorted_flag _ n h r Hn Hc).
  assert (E : (forall st len, piece_of n h st len -> IsSorted_ (fun x y => y <=? x) d (ext_start st) (ext_len st len) = true) <-> pairs_ok Z.leb d 0 n).
  { rewrite (pairs_chunks Z.leb d n h Hn). split; intros H st len Hp; specialize (H st len Hp); apply IsSorted_pairs in H || apply IsSorted_pairs; exact H. }
  rewrite E. split.
  - intros H i j Hi Hj. destruct (Z.eq_dec i j) as [->|]; [lia|]. apply (pairs_up Z.le d n); try lia.
    intros k Hk. apply Z.leb_le. apply (H k). lia.
  - intros H i Hi. apply Z.leb_le. apply H; lia.
Qed.

(** float, double, long double: ascending numbers, then only NaNs *)
Theorem C39_is_sorted_float {T} (val : T -> spec_float) (d : Z -> T) n h r : 0 <= n -> is_sorted_call (IsSortedFloat val d) n h r ->
  (r = true <-> exists k, 0 <= k <= n /\
     (forall i, 0 <= i < k -> val (d i) <> S754_nan) /\ (forall i j, 0 <= i <= j -> j < k -> SFleb (val (d i)) (val (d j)) = true) /\
     (forall i, k <= i < n -> val (d i) = S754_nan)).
Proof.
  intros Hn Hc. rewrite (is_sorted_flag _ n h r Hn Hc).
  assert (E : (forall st len, piece_of n h st len -> IsSortedFloat val d (ext_start st) (ext_len st len) = true) <-> pairs_ok (ok_float val) d 0 n).
  { rewrite (pairs_chunks (ok_float val) d n h Hn). split; intros H st len Hp; specialize (H st len Hp); apply IsSortedFloat_pairs in H || apply IsSortedFloat_pairs; exact H. }
  rewrite E. clear E Hc. split.
  - intros H.
    assert (Hd : forall i j, 0 <= i <= j -> j < n -> val (d i) = S754_nan -> val (d j) = S754_nan).
    { intros i j Hi Hj Ei. destruct (Z.eq_dec i j) as [->|]; [exact Ei|].
      revert Ei. change ((fun x y => val x = S754_nan -> val y = S754_nan) (d i) (d j)). apply (pairs_up _ d n); try lia; [auto|].
      intros k Hk Ek. specialize (H k ltac:(lia)). unfold ok_float in H. rewrite Ek, SFleb_nan_l, orb_false_r in H. now apply nan_float_true in H. }
    (* the first NaN *)
    assert (Hk : exists k, 0 <= k <= n /\ (forall i, 0 <= i < k -> val (d i) <> S754_nan) /\ (forall i, k <= i < n -> val (d i) = S754_nan)).
    { clear H. revert Hd. pattern n. apply natlike_ind; [| |exact Hn].
      - intros _. exists 0. repeat split; try lia; intros; lia.
      - intros x Hx IH Hd. destruct IH as (k & K1 & K2 & K3); [intros i j Hi Hj; apply Hd; lia|].
        destruct (Z.eq_dec k x) as [->|Hne].
        + destruct (nan_dec (val (d x))) as [En|En].
          * exists x. split; [lia|]. split; [exact K2|]. intros i Hi. replace i with x by lia. exact En.
          * exists (Z.succ x). split; [lia|]. split; [|intros; lia]. intros i Hi. destruct (Z.eq_dec i x) as [->|]; [exact En|apply K2; lia].
        + exists k. split; [lia|]. split; [exact K2|]. intros i Hi. destruct (Z.eq_dec i x) as [->|]; [|apply K3; lia].
          apply (Hd k x); [lia|lia|apply K3; lia]. }
    destruct Hk as (k & K1 & K2 & K3). exists k. split; [exact K1|]. split; [exact K2|]. split; [|exact K3].
    intros i j Hi Hj. destruct (Z.eq_dec i j) as [->|Hne].
    + rewrite SFleb_fkey by (apply K2; lia). now rewrite lex3_irr.
    + rewrite SFleb_fkey by (apply K2; lia).
      change ((fun x y => negb (lex3 (fkey (val y)) (fkey (val x))) = true) (d i) (d j)).
      apply (pairs_up _ d k); try lia.
      * intros x y z G1 G2. apply negb_true_iff in G1, G2. apply negb_true_iff. exact (sw_ntrans _ sw_lex3 _ _ _ G2 G1).
      * intros u Hu. cbn beta. specialize (H u ltac:(lia)). unfold ok_float in H.
        assert (Nu : nan_float val (d u) = false) by (apply nan_float_false, K2; lia). rewrite Nu in H. cbn [orb] in H.
        rewrite <- SFleb_fkey by (apply K2; lia). exact H.
  - intros (k & K1 & K2 & K3 & K4) i Hi. unfold ok_float. apply orb_true_iff. destruct (Z.lt_ge_cases i k).
    + right. apply K3; lia.
    + left. apply nan_float_true. apply K4. lia.
Qed.

(** strings, unicode (items of L units): ascending in lexicographic order *)
Theorem C39_is_sorted_string (d : Z -> list Z) (L : nat) n h r : 0 <= n -> (forall i, 0 <= i < n -> length (d i) = L) ->
  is_sorted_call (IsSorted_ (fun x y => negb (STRING_LT x y)) d) n h r ->
  (r = true <-> forall i j, 0 <= i < j -> j < n -> ~ lex_less (d j) (d i)).
Proof.
  intros Hn HL Hc. rewrite (is_sorted_flag _ n h r Hn Hc).
  set (ok := fun x y => negb (STRING_LT y x)).
  assert (E : (forall st len, piece_of n h st len -> IsSorted_ (fun x y => negb (STRING_LT x y)) d (ext_start st) (ext_len st len) = true) <-> pairs_ok ok d 0 n).
  { rewrite (pairs_chunks ok d n h Hn). split; intros H st len Hp; specialize (H st len Hp); apply IsSorted_pairs in H || apply IsSorted_pairs; exact H. }
  rewrite E. clear E. split.
  - intros H i j Hi Hj Hlt. apply C36_string_lt_is_lexicographic in Hlt; [|now rewrite !HL by lia].
    rewrite string_lexl in Hlt by (now rewrite !HL by lia).
    assert (G : lexl (d j) (d i) = false); [|congruence].
    change ((fun x y => lexl y x = false) (d i) (d j)). apply (pairs_up _ d n); try lia.
    + intros x y z G1 G2. exact (sw_ntrans _ sw_lexl _ _ _ G2 G1).
    + intros k Hk. cbn beta. rewrite <- string_lexl by (now rewrite !HL by lia). apply negb_true_iff. apply (H k). lia.
  - intros H i Hi. unfold ok. destruct (STRING_LT (d i) (d (i - 1))) eqn:E; [|reflexivity]. exfalso.
    apply C36_string_lt_is_lexicographic in E; [|now rewrite !HL by lia]. exact (H (i - 1) i ltac:(lia) ltac:(lia) E).
Qed.

(** the answer never depends on chunking or schedule *)
Theorem C39_is_sorted_schedule_free {T} (ge : T -> T -> bool) (d : Z -> T) n h h' r r' : 0 <= n ->
  is_sorted_call (IsSorted_ ge d) n h r -> is_sorted_call (IsSorted_ ge d) n h' r' -> r = r'.
Proof.
  intros Hn Hc Hc'. pose proof (is_sorted_flag _ n h r Hn Hc) as A. pose proof (is_sorted_flag _ n h' r' Hn Hc') as B.
  pose proof (pairs_chunks (fun x y => ge y x) d n h Hn) as C. pose proof (pairs_chunks (fun x y => ge y x) d n h' Hn) as D.
  assert (E : r = true <-> r' = true).
  { rewrite A, B. split; intros H st len Hp; apply IsSorted_pairs.
    - apply D; [|exact Hp]. apply C. intros st' len' Hp'. apply IsSorted_pairs. now apply H.
    - apply C; [|exact Hp]. apply D. intros st' len' Hp'. apply IsSorted_pairs. now apply H. }
  destruct r, r'; try reflexivity; [symmetry; now apply E|now apply E].
Qed.

(** a threaded call can return *)
Theorem C39_can_return func n T zz : WORK_ITEM_BIG <= n -> 0 <= T -> exists sched r, is_sorted_call func n (Threaded T zz sched) r.
Proof.
  intros HB HT. destruct (chunk_call_can_return (is_sorted_prog func) true n T zz (fun _ => true) HB HT) as (s & m' & H).
  exists s, (m' 0), m'. auto.
Qed.

(** half floats: IsSorted<atop_half> compares bit patterns, so -1.0, 1.0 is "not sorted" and 1.0, -1.0 is "sorted" *)
Theorem C39_is_sorted_half_refuted :
  let minus_one := 48128 in let one := 15360 in
  SFltb (decode16 minus_one) (decode16 one) = true /\
  is_sorted_call (IsSorted_ (fun x y => y <=? x) (fun i => if i =? 0 then minus_one else one)) 2 Alone false /\
  is_sorted_call (IsSorted_ (fun x y => y <=? x) (fun i => if i =? 0 then one else minus_one)) 2 Alone true.
Proof. cbv zeta. split; [reflexivity|]. split; eexists; split; reflexivity. Qed.

(** is_sorted passes numpy's type number where an ATOP number is expected: right for bool and 8 to 64 bit integers (NPY_LONG), wrong for floats *)
Theorem C39_is_sorted_number_partial num s b : npy_type num = NInt s b -> 0 < num <= 8 -> is_sorted_switch num = Some (AsInt s b).
Proof. intros H Hn. assert (C : num = 1 \/ num = 2 \/ num = 3 \/ num = 4 \/ num = 5 \/ num = 6 \/ num = 7 \/ num = 8) by lia.
  repeat destruct C as [->|C]; try subst num; injection H as <- <-; reflexivity. Qed.
(** the doubles 1.0, 0.0 (bytes given) are "sorted": only the first 8 bytes are read, as two floats *)
Definition one_zero (a : Z) : Z := if a =? 6 then 240 else if a =? 7 then 63 else 0.
Theorem C39_is_sorted_double_refuted :
  npy_type 12 = NFloat 8 /\
  SFltb (decode64 (raw_item 8 one_zero 1)) (decode64 (raw_item 8 one_zero 0)) = true /\
  is_sorted_num 12 one_zero 2 = Some true.
Proof. repeat split; vm_compute; reflexivity. Qed.

(** * Examples *)
Example is_sorted_yes : is_sorted_call (IsSorted_ (fun x y => y <=? x) (fun i => i / 2)) 5 Alone true.
Proof. eexists. split; reflexivity. Qed.
Example is_sorted_no : is_sorted_call (IsSorted_ (fun x y => y <=? x) (fun i => i mod 3)) 5 Alone false.
Proof. eexists. split; reflexivity. Qed.

Print Assumptions C39_is_sorted_int.
Print Assumptions C39_is_sorted_float.
Print Assumptions C39_is_sorted_string.
Print Assumptions C39_is_sorted_schedule_free.
Print Assumptions C39_can_return.
Print Assumptions C39_is_sorted_double_refuted.
