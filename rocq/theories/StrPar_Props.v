(** StrPar_Props.v - C37: strings on threads; C38: strided arrays. *)
From Coq Require Import SpecFloat Sorted Peano_dec.
From Verif Require Import Base Threads_Model Sort_Model SortCmp_Model Sort_Base_Proofs Sort_Insert_Proofs SortCmp_Proofs
  Sort_Heap_Proofs Sort_Quick_Proofs Sort_Merge_Base_Proofs Sort_Merge_Proofs Sort_MergeNum_Proofs Sort_Props
  Jobs_Model ParSort_Model ParSort_Tree_Proofs ParSort_Proofs ParSort_Props ParArg_Props StrPar_Model.

Lemma seg_is_range (m : Z -> Z) s : forall k a b, (Z.to_nat (b - a) = k)%nat -> seg m (s + a) (s + b) = zrange a b -> forall x, a <= x < b -> m (s + x) = x.
Proof.
  induction k as [|k IH]; intros a b Hk E x Hx; [lia|].
  rewrite seg_cons, zrange_cons in E by lia. injection E as E1 E2. destruct (Z.eq_dec x a) as [->|]; [exact E1|].
  apply (IH (a + 1) b); [lia| |lia]. replace (s + (a + 1)) with (s + a + 1) by lia. exact E2.
Qed.

(** * C37: argsort of strings on threads *)
(** row 0 has the string "b", every other row "a" *)
Definition b_then_a : key := KStr 1 (fun r => if r =? 0 then [98] else [97]).
Lemma b_then_a_lt a b : klt b_then_a a b = ((b =? 0) && negb (a =? 0)).
Proof. cbn. destruct (a =? 0), (b =? 0); reflexivity. Qed.

Lemma E1_pos n : 64 <= n < 2 ^ 63 -> 8 <= EndPositions n 1 < n. Proof. intros Hn. ev. dm. Qed.
Section ArgStr.
  Variables (F : nat) (start pw n wakeup : Z) (zz : bool) (m : Z -> Z).
  Hypothesis Hn : 64 <= n < 2 ^ 63.
  Hypothesis HF : 2 * n + 1 < Z.of_nat F.
  Hypothesis HL : arg_layout start pw n.
  Hypothesis Hm : items m start (start + n) = zrange 0 n.
  Hypothesis Hw : 0 <= wakeup.
  Notation k := b_then_a.
  Notation E1 := (EndPositions n 1).

  Lemma wf_k : key_fits n MERGE k.
  Proof. split; [|intros _; exact I]. intros r Hr. now destruct (r =? 0). Qed.
  Lemma m_id x : 0 <= x < n -> m (start + x) = x.
  Proof.
    intros Hx. apply (seg_is_range m start _ 0 n eq_refl); [rewrite Z.add_0_r; exact Hm|exact Hx].
  Qed.

  Definition spost (l : nat) (i : Z) (m' : Z -> Z) : Prop :=
    if i =? 0 then m' (start + E1 - 1) = 0 /\ ((0 < l)%nat -> m' (start + E1) = E1)
    else forall x, lo_ n l i <= x < hi_ n l i -> m' (start + x) = x.
  Notation ok := (nodeok start start pw pw n).

  Lemma E1_hi : hi_ n 0 0 = E1 /\ lo_ n 0 0 = 0. Proof. split; reflexivity. Qed.
  Lemma node_ge l i : gnode 1 3 l i -> i <> 0 -> E1 <= lo_ n l i.
  Proof.
    intros H Hi. unfold lo_. pose proof (node3 l i H). pose proof (pow2_pos l). destruct H. apply E_mono; nia.
  Qed.

  Lemma spost_frame l i (m1 m2 : Z -> Z) : gnode 1 3 l i -> (forall x, ok l i x = true -> m2 x = m1 x) -> spost l i m1 -> spost l i m2.
  Proof.
    intros H Hx. unfold spost. pose proof (E1_pos n Hn). destruct (Z.eqb_spec i 0) as [->|Hi].
    - assert (A : lo_ n l 0 = 0 /\ E1 <= hi_ n l 0 /\ ((0 < l)%nat -> E1 < hi_ n l 0)).
      { node_cases l 0 H. destruct H1 as [[-> _]|[[-> _]|[[-> _]|[-> _]]]]; unfold lo_, hi_; ev; (split; [reflexivity|]); split; try (intros; lia); dm. }
      destruct A as (A1 & A2 & A3). intros [G1 G2]. split; [rewrite Hx; [exact G1|unfold nodeok, inr_; lia]|].
      intros Hl. specialize (A3 Hl). rewrite Hx; [now apply G2|unfold nodeok, inr_; lia].
    - intros G x Hr. rewrite Hx; [now apply G|]. unfold nodeok, inr_. lia.
  Qed.

  Lemma sleaf i : gnode 1 3 0 i -> wp (ok 0%nat i) (argsort_leaf F MERGE (col_of n k) start pw n i) (fun _ => spost 0 i) m.
  Proof.
    intros H. unfold argsort_leaf. rewrite node_first_is, node_size_is, node_ws_is by exact H.
    pose proof (node_bounds n 0 i ltac:(lia) H) as [S1 S2].
    pose proof (node_range n ltac:(lia) 0 i H) as (R1 & R2 & R3 & R4 & R5).
    assert (Hd : disjoint (start + lo_ n 0 i) (hi_ n 0 i - lo_ n 0 i) (pw + i * 2 ^ Z.of_nat 0 * AllocChunk n) ((hi_ n 0 i - lo_ n 0 i) / 2)).
    { unfold arg_layout, disjoint in *. set (q := (hi_ n 0 i - lo_ n 0 i) / 2) in *. lia. }
    set (a := lo_ n 0 i) in *. set (b := hi_ n 0 i) in *.
    assert (Es : seg m (start + a) (start + b) = zrange a b).
    { replace (start + b) with (start + a + (b - a)) by lia.
      pose proof (seg_shift m (fun x => x) a b (start + a)) as G. rewrite G; [unfold seg; apply map_id|].
      intros x Hx. replace (start + a + (x - a)) with (start + x) by lia. apply m_id. lia. }
    apply (sort_index_gen n k F MERGE wf_k ltac:(lia) HF); try lia; try exact Hd.
    - intros x Hx. unfold nodeok, inr_. fold a b. lia.
    - intros x Hx. unfold nodeok, inr_. fold a b. lia.
    - intros x Hx. replace x with (start + (x - start)) by lia. rewrite m_id by lia. unfold row_in. lia.
    - replace (start + a + (b - a)) with (start + b) by lia. intros m' [G1 G2] G3 _. rewrite Es in G1, G2. unfold spost.
      destruct (Z.eqb_spec i 0) as [->|Hi].
      + split; [|intros; lia]. pose proof (E1_pos n Hn). destruct E1_hi as [E1h E1l]. fold a in E1l. fold b in E1h.
        assert (Hin : In 0 (seg m' (start + a) (start + b))).
        { eapply Permutation_in; [apply Permutation_sym; exact G1|]. apply zrange_In. lia. }
        apply seg_In in Hin. destruct Hin as (p & Hp & Ep).
        destruct (Z.eq_dec p (start + E1 - 1)) as [->|Hne]; [exact Ep|].
        assert (Hlt : klt k (m' (start + E1 - 1)) (m' p) = false) by (apply G3; lia).
        rewrite b_then_a_lt, Ep in Hlt. destruct (Z.eqb_spec (m' (start + E1 - 1)) 0) as [E|E]; [exact E|discriminate].
      + assert (Ha : E1 <= a) by (apply node_ge; assumption). pose proof (E1_pos n Hn).
        assert (Efil : forall l, (forall y, In y l -> 1 <= y) -> filter (eqv (klt k) 1) l = l).
        { induction l as [|y l IH]; intros Hl; [reflexivity|]. cbn [filter].
          assert (Hy : 1 <= y) by (apply Hl; now left).
          assert (Hb : eqv (klt k) 1 y = true).
          { unfold eqv. rewrite !b_then_a_lt. replace (y =? 0) with false by lia. reflexivity. }
          rewrite Hb. f_equal. apply IH. intros z Hz. apply Hl. now right. }
        specialize (G2 1). rewrite !Efil in G2.
        2: { intros y Hy. apply zrange_In in Hy. lia. }
        2: { intros y Hy. assert (In y (zrange a b)) by (eapply Permutation_in; eassumption). apply zrange_In in H1. lia. }
        exact (seg_is_range m' start _ a b eq_refl G2).
  Qed.

  Lemma smerge l i m1 : gnode 1 3 (S l) i -> spost l (2 * i) m1 -> spost l (2 * i + 1) m1 ->
    wp (ok (S l) i) (merge_node_string F (lt_at (col_of n k)) start pw n (S l) i) (fun _ => spost (S l) i) m1.
  Proof.
    intros H A B. unfold merge_node_string, par_merge_string. rewrite node_first_is, node_size_is, node_ws_is by exact H.
    pose proof (node_mid n l i ltac:(lia) H) as (M1 & M2 & M3 & M4).
    pose proof (node_bounds n (S l) i ltac:(lia) H) as [S1 S2].
    pose proof (node_range n ltac:(lia) (S l) i H) as (R1 & R2 & R3 & R4 & R5).
    pose proof H as [H1 H2].
    assert (Hd : gnode 1 3 l (2 * i + 1)) by (apply (node_down 1 3 l i); [exact H|]; replace (2 * i + 1) with (1 + i * 2) by lia; now rewrite Z.div_add by lia).
    pose proof (node_bounds n l (2 * i + 1) ltac:(lia) Hd) as [T1 _].
    pose proof (node_ge l (2 * i + 1) Hd ltac:(lia)) as T2. pose proof (E1_pos n Hn).
    set (a := lo_ n (S l) i) in *. set (b := hi_ n (S l) i) in *.
    unfold spost in B. replace (2 * i + 1 =? 0) with false in B by lia.
    rewrite M3 in M4. set (c := lo_ n l (2 * i + 1)) in *.
    assert (Epm : start + a + (b - a) / 2 = start + c) by lia. rewrite Epm.
    assert (Hc : a < c < b) by (rewrite M2; split; [rewrite <- M4; dm|lia]).
    apply wp_rd; [unfold nodeok, inr_; fold a b; lia|]. rewrite B by (unfold c in *; lia).
    apply wp_ask with (a := false).
    { rewrite (col_lt_ok n k (proj1 wf_k)) by (unfold row_in; lia). f_equal. rewrite b_then_a_lt. lia. }
    apply wp_ret. unfold spost in *. destruct (Z.eqb_spec i 0) as [->|Hi].
    - cbn [Z.eqb Z.mul] in A. destruct A as [A1 A2]. split; [exact A1|]. intros _.
      destruct l as [|l]; [|apply A2; lia].
      assert (Ec : c = E1) by reflexivity. rewrite <- Ec. apply B. lia.
    - replace (2 * i =? 0) with false in A by lia. intros x Hx.
      destruct (Z.lt_ge_cases x c); [apply A|apply B]; lia.
  Qed.

  Notation run sched := (par_argsort_string F (col_of n k) start pw n wakeup zz m sched).

  Lemma sdis l i l' i' x : gnode 1 3 l i -> gnode 1 3 l' i' -> ~ under l i l' i' -> ~ under l' i' l i ->
    ok l i x = true -> ok l' i' x = true -> False.
  Proof. exact (nok_disjoint start start pw pw n ltac:(lia) (arg_layout_ok _ _ _ HL) l i l' i' x). Qed.

  Lemma arg_string_result sched : returned (run sched) -> pm (run sched) (start + E1 - 1) = 0 /\ pm (run sched) (start + E1) = E1.
  Proof.
    intros Hret. destruct (tree_result _ _ 1 3 wakeup zz m ok spost Hw ltac:(lia) sleaf smerge spost_frame sdis sched 0 Hret) as (H1 & _).
    specialize (H1 0 ltac:(lia)). unfold spost in H1. cbn [Z.eqb] in H1. destruct H1 as [A B]. split; [exact A|apply B; lia].
  Qed.
  Lemma arg_string_can_return sched : 1 <= wakeup -> exists sched', returned (run (sched ++ sched')).
  Proof. intros W1. exact (tree_can_return _ _ 1 3 wakeup zz m ok spost Hw ltac:(lia) sleaf smerge spost_frame sdis W1 sched). Qed.
End ArgStr.

(** C37, argsort: for every length from 64 on (the code goes on threads from 65536) and every schedule, the threaded argsort of
    these strings is not sorted: the row with "b" comes before a row with "a" *)
Theorem C37_string_argsort_refuted F start pw n wakeup zz (m : Z -> Z) sched :
  64 <= n < 2 ^ 63 -> 2 * n + 1 < Z.of_nat F -> 0 <= wakeup -> arg_layout start pw n -> items m start (start + n) = zrange 0 n ->
  let s := par_argsort_string F (col_of n b_then_a) start pw n wakeup zz m sched in
  (returned s -> exists i j, start <= i < j /\ j < start + n /\ key_lt b_then_a (pm s j) (pm s i) = true) /\
  (1 <= wakeup -> exists sched', returned (par_argsort_string F (col_of n b_then_a) start pw n wakeup zz m (sched ++ sched'))).
Proof.
  intros Hn HF Hw HL Hm s. split.
  - intros Hret. destruct (arg_string_result F start pw n wakeup zz m Hn HF HL Hm Hw sched Hret) as [A B]. fold s in A, B.
    pose proof (E1_pos n Hn). exists (start + EndPositions n 1 - 1), (start + EndPositions n 1). split; [lia|]. split; [lia|].
    rewrite A, B. cbn. replace (EndPositions n 1 =? 0) with false by lia. reflexivity.
  - exact (arg_string_can_return F start pw n wakeup zz m Hn HF HL Hm Hw sched).
Qed.

(** * C37: sort of byte strings on threads *)
(** ** items of L bytes in a memory of bytes *)
Lemma vec_eq {L} (a b : vec L) : proj1_sig a = proj1_sig b -> a = b.
Proof. destruct a as [a Ha], b as [b Hb]. cbn. intros <-. f_equal. apply UIP_nat. Qed.
Lemma rdl (m : Z -> Z) k x : length (map m (zseq x k)) = k. Proof. now rewrite map_length, zseq_length. Qed.
Definition rdv (m : Z -> Z) (k : nat) (x : Z) : vec k := exist _ (map m (zseq x k)) (rdl m k x).
Definition view (L : nat) (m : Z -> Z) (x : Z) : vec L := rdv m L (Z.of_nat L * x).

Lemma bread_ok (ok : Z -> bool) {A} : forall k x m (f : vec k -> prog Z A) Q,
  (forall y, x <= y < x + Z.of_nat k -> ok y = true) -> wp ok (f (rdv m k x)) Q m -> wp ok (bind (bread k x) f) Q m.
Proof.
  induction k as [|k IH]; intros x m f Q Hok H; cbn [bread].
  - assert (E : rdv m 0 x = exist _ [] eq_refl) by (now apply vec_eq). rewrite E in H. exact H.
  - cbn [bind load]. unfold wp. cbn. rewrite Hok by lia.
    assert (G : wp ok (bind (bread k (x + 1)) (fun r => f (vcons (m x) r))) Q m).
    { apply IH; [intros y Hy; apply Hok; lia|]. replace (vcons (m x) (rdv m k (x + 1))) with (rdv m (S k) x) by (now apply vec_eq). exact H. }
    unfold wp in G. 
    assert (E : forall (p : prog Z (vec k)) m', exec ok (bind (bind p (fun r => Ret (vcons (m x) r))) f) m' = exec ok (bind p (fun r => f (vcons (m x) r))) m').
    { induction p as [a|y g IHp|y v g IHp| |]; intros m'; cbn; try reflexivity; destruct (ok y); auto. }
    rewrite E. exact G.
Qed.

Fixpoint wrl (v : list Z) (x : Z) (m : Z -> Z) : Z -> Z := match v with [] => m | b :: v => wrl v (x + 1) (zupd m x b) end.
Lemma wrl_at : forall v x m y, wrl v x m y = if inr_ x (x + Z.of_nat (length v)) y then nth (Z.to_nat (y - x)) v 0 else m y.
Proof.
  induction v as [|b v IH]; intros x m y; cbn [wrl].
  - unfold inr_. cbn [length]. now replace ((x <=? y) && (y <? x + Z.of_nat 0)) with false by lia.
  - rewrite IH. unfold inr_, zupd. cbn [length]. destruct (Z.eqb_spec y x) as [->|Hne].
    + replace ((x + 1 <=? x) && _) with false by lia. replace ((x <=? x) && (x <? x + Z.of_nat (S (length v)))) with true by lia.
      replace (x - x) with 0 by lia. reflexivity.
    + destruct ((x + 1 <=? y) && (y <? x + 1 + Z.of_nat (length v))) eqn:E.
      * replace ((x <=? y) && (y <? x + Z.of_nat (S (length v)))) with true by lia.
        replace (Z.to_nat (y - x)) with (S (Z.to_nat (y - (x + 1)))) by lia. reflexivity.
      * replace ((x <=? y) && (y <? x + Z.of_nat (S (length v)))) with false by lia. reflexivity.
Qed.
Lemma bwrite_ok (ok : Z -> bool) p Q : forall v x m,
  (forall y, x <= y < x + Z.of_nat (length v) -> ok y = true) -> wp ok p Q (wrl v x m) -> wp ok (bwrite v x p) Q m.
Proof.
  induction v as [|b v IH]; intros x m Hok H; cbn [bwrite]; [exact H|].
  unfold wp. cbn. rewrite Hok by (cbn; lia). apply IH; [intros y Hy; apply Hok; cbn; lia|]. exact H.
Qed.

Lemma map_zseq_nth v : forall x, map (fun y => nth (Z.to_nat (y - x)) v 0) (zseq x (length v)) = v.
Proof.
  induction v as [|b v IH]; intros x; [reflexivity|]. cbn [length zseq map]. replace (x - x) with 0 by lia. cbn [nth Z.to_nat]. f_equal.
  rewrite <- (IH (x + 1)) at 2. apply map_ext_in. intros y Hy. apply zseq_In in Hy.
  replace (Z.to_nat (y - x)) with (S (Z.to_nat (y - (x + 1)))) by lia. reflexivity.
Qed.

Lemma view_ext L m m' x : (forall y, Z.of_nat L * x <= y < Z.of_nat L * x + Z.of_nat L -> m' y = m y) -> view L m' x = view L m x.
Proof.
  intros H. apply vec_eq. cbn. apply map_ext_in. intros y Hy. apply zseq_In in Hy. now apply H.
Qed.
Lemma view_write L (v : vec L) x m y : view L (wrl (proj1_sig v) (Z.of_nat L * x) m) y = zupd (view L m) x v y.
Proof.
  destruct v as [v Hv]. unfold zupd. destruct (Z.eqb_spec y x) as [->|Hne].
  - apply vec_eq. cbn. transitivity (map (fun y => nth (Z.to_nat (y - Z.of_nat L * x)) v 0) (zseq (Z.of_nat L * x) L)); [|rewrite <- Hv at 2; apply map_zseq_nth]. apply map_ext_in. intros z Hz. apply zseq_In in Hz.
    rewrite wrl_at. unfold inr_. rewrite Hv. now replace ((Z.of_nat L * x <=? z) && (z <? Z.of_nat L * x + Z.of_nat L)) with true by lia.
  - apply view_ext. intros z Hz. rewrite wrl_at. unfold inr_. cbn [proj1_sig]. rewrite Hv.
    replace ((Z.of_nat L * x <=? z) && (z <? Z.of_nat L * x + Z.of_nat L)) with false; [reflexivity|].
    symmetry. apply andb_false_iff. destruct (Z.lt_ge_cases y x); [left|right]; nia.
Qed.

(** running an item program on bytes does what it does on items *)
Lemma blift_ok L (oki okb : Z -> bool) :
  (forall x y, oki x = true -> Z.of_nat L * x <= y < Z.of_nat L * x + Z.of_nat L -> okb y = true) ->
  forall (p : prog (vec L) unit) (Q : unit -> (Z -> vec L) -> Prop) m (M : Z -> vec L) m0 (Q' : unit -> (Z -> Z) -> Prop),
  (forall x, M x = view L m x) ->
  (forall y, (forall x, oki x = true -> ~ (Z.of_nat L * x <= y < Z.of_nat L * x + Z.of_nat L)) -> m y = m0 y) ->
  (forall m' M', (forall x, M' x = view L m' x) ->
     (forall y, (forall x, oki x = true -> ~ (Z.of_nat L * x <= y < Z.of_nat L * x + Z.of_nat L)) -> m' y = m0 y) ->
     Q tt M' -> Q' tt m') ->
  wp oki p Q M -> wp okb (blift L p) Q' m.
Proof.
  intros Hok. induction p as [[]|x f IH|x v f IH| |]; intros Q m M m0 Q' HM H0 HQ H; cbn [blift].
  - exact (HQ m M HM H0 H).
  - unfold wp in H. cbn in H. destruct (oki x) eqn:E; [|contradiction].
    apply bread_ok; [intros y Hy; now apply (Hok x)|]. apply (IH _ Q m M m0); try assumption.
    rewrite HM in H. exact H.
  - unfold wp in H. cbn in H. destruct (oki x) eqn:E; [|contradiction].
    apply bwrite_ok; [intros y Hy; rewrite (proj2_sig v) in Hy; now apply (Hok x)|].
    apply (IH Q _ (zupd M x v) m0); try assumption.
    + intros y. rewrite view_write. unfold zupd. now destruct (y =? x).
    + intros y Hy. rewrite wrl_at, (proj2_sig v). specialize (Hy x E) as G. unfold inr_.
      replace ((Z.of_nat L * x <=? y) && (y <? Z.of_nat L * x + Z.of_nat L)) with false by lia. now apply H0.
  - unfold wp in H. cbn in H. contradiction.
  - unfold wp in H. cbn in H. contradiction.
Qed.

(** ** the strings "ba" *)
Definition pat (y : Z) : Z := 98 - y mod 2.
Definition ab (v : Z) : Prop := v = 97 \/ v = 98.
Lemma pat_ab y : ab (pat y). Proof. unfold ab, pat. dm. Qed.

(** one byte merge: the first byte of the left half is replaced by the first of the right half if that is smaller *)
Lemma byte_merge_ok (ok : Z -> bool) F start n pw m (Q : unit -> (Z -> Z) -> Prop) :
  2 <= n -> 2 * n < Z.of_nat F -> disjoint start n pw (2 * (n / 2)) ->
  (forall x, start <= x < start + n -> ok x = true) -> (forall x, pw <= x < pw + 2 * (n / 2) -> ok x = true) ->
  (forall x, start <= x < start + 2 * n -> ab (m x)) ->
  (forall m', (forall x, start <= x < start + 2 * n -> ab (m' x)) ->
     (m' start = m start \/ m (start + n / 2) < m start /\ m' start = m (start + n / 2)) ->
     (m (start + n / 2) < m (start + n / 2 - 1) -> m (start + n / 2) < m start -> m' start = m (start + n / 2)) -> Q tt m') ->
  (forall x, start <= x < start + 2 * n -> ok x = true) ->
  disjoint start (2 * n) pw (2 * (n / 2)) ->
  wp ok (byte_merge F 2 start n pw) Q m.
Proof.
  intros Hn HF Hd Ho1 Ho2 Hab HQ Ho3 Hd2. unfold byte_merge. set (h := n / 2) in *. assert (Hh : 1 <= h /\ 2 * h <= n /\ h < n) by (unfold h; dm).
  apply wp_rd; [apply Ho1; lia|]. apply wp_rd; [apply Ho1; lia|].
  destruct (Z.ltb_spec (m (start + h)) (m (start + h - 1))) as [Hlt|Hge].
  2: { apply wp_ret. apply HQ; [exact Hab|now left|lia]. }
  replace (start + h - start) with h by lia. change (Z.of_nat 2) with 2.
  unfold disjoint in *.
  apply memcpy_ok; [lia|intros k Hk; split; [apply Ho3; lia|apply Ho2; lia]|lia|].
  intros m1 C1 C2.
  assert (A1 : seg m1 pw (pw + h) = seg m start (start + h)).
  { replace (pw + h) with (pw + (start + h - start)) by lia. apply seg_shift. intros x Hx. rewrite C1 by lia. f_equal. lia. }
  assert (A2 : seg m1 (start + h) (start + n) = seg m (start + h) (start + n)).
  { apply seg_ext. intros x Hx. apply C2. lia. }
  apply (merge_back_ok F Z.ltb ok _ start (start + h) (start + n) pw h); try lia.
  - intros l r _ _ Q' m' H. now apply wp_ret.
  - intros x Hx. apply Ho2. lia.
  - exact Ho1.
  - rewrite A1, A2. intros m' M Ho.
    assert (Hab' : forall x, start <= x < start + n -> ab (m' x)).
    { apply (seg_perm_all ab m m'); [|intros x Hx; apply Hab; lia]. rewrite (seg_split m start (start + h) (start + n)) by lia. now apply (mrg_perm _ _ _ _ M). }
    apply HQ.
    + intros x Hx. destruct (Z.lt_ge_cases x (start + n)); [apply Hab'; lia|]. rewrite Ho by lia. rewrite C2 by lia. apply Hab. lia.
    + rewrite (seg_cons m start), (seg_cons m (start + h)), (seg_cons m' start) in M by lia. inversion M; subst; [now left|right; split; [lia|reflexivity]].
    + intros _ H2. rewrite (seg_cons m start), (seg_cons m (start + h)), (seg_cons m' start) in M by lia. inversion M; subst; [lia|reflexivity].
Qed.

Definition ba : vec 2 := exist _ [98; 97] eq_refl.
Lemma view_ba m x : m (2 * x) = pat (2 * x) -> m (2 * x + 1) = pat (2 * x + 1) -> view 2 m x = ba.
Proof.
  intros H1 H2. apply vec_eq. unfold view, rdv. cbn [proj1_sig zseq map ba]. change (Z.of_nat 2) with 2. rewrite H1, H2. unfold pat.
  replace ((2 * x) mod 2) with 0 by dm. replace ((2 * x + 1) mod 2) with 1 by dm. reflexivity.
Qed.
Lemma ba_view m x : view 2 m x = ba -> forall y, 2 * x <= y < 2 * x + 2 -> m y = pat y.
Proof.
  intros H y Hy. apply (f_equal (@proj1_sig _ _)) in H. unfold view, rdv in H. cbn [proj1_sig zseq map ba] in H. change (Z.of_nat 2) with 2 in H.
  injection H as H1 H2. unfold pat. assert (C : y = 2 * x \/ y = 2 * x + 1) by lia. destruct C as [->| ->].
  - rewrite H1. dm.
  - rewrite H2. dm.
Qed.

Lemma half y : 2 * (y / 2) <= y < 2 * (y / 2) + 2. Proof. dm. Qed.
Section ByteStr.
  Variables (F : nat) (src dst lw pw n q wakeup : Z) (zz : bool) (m : Z -> Z).
  Definition bok (l : nat) (i y : Z) : bool := nodeok src dst lw pw n l i (y / 2).
  Definition bpost (l : nat) (i : Z) (m' : Z -> Z) : Prop :=
    (forall y, 2 * (dst + lo_ n l i) <= y < 2 * (dst + hi_ n l i) -> ab (m' y)) /\
    (l = 0%nat -> forall y, 2 * (dst + lo_ n l i) <= y < 2 * (dst + hi_ n l i) -> m' y = pat y) /\
    ((0 < l)%nat -> i = 0 -> m' (2 * dst) = 97).

  Lemma bok_dst l i y : 2 * (dst + lo_ n l i) <= y < 2 * (dst + hi_ n l i) -> bok l i y = true.
  Proof. intros H. unfold bok, nodeok, inr_. pose proof (half y). lia. Qed.
  Lemma bok_src l i y : 2 * (src + lo_ n l i) <= y < 2 * (src + hi_ n l i) -> bok l i y = true.
  Proof. intros H. unfold bok, nodeok, inr_. pose proof (half y). lia. Qed.
  Lemma bok_pw l i y : 2 * (pw + i * 2 ^ Z.of_nat l * AllocChunk n) <= y < 2 * (pw + (i + 1) * 2 ^ Z.of_nat l * AllocChunk n) -> bok l i y = true.
  Proof. intros H. unfold bok, nodeok, inr_. pose proof (half y). lia. Qed.

  Hypothesis Hn : n = 8 * (2 * q + 1).
  Hypothesis Hq : 4 <= q.
  Hypothesis HF : 4 * n + 1 < Z.of_nat F.
  Hypothesis HL : layout src dst lw pw n.
  Hypothesis Hm : forall y, 2 * src <= y < 2 * (src + n) -> m y = pat y.
  Hypothesis Hw : 0 <= wakeup.
  Lemma H64 : 64 <= n. Proof. lia. Qed.

  Lemma bpost_frame l i (m1 m2 : Z -> Z) : gnode 1 3 l i -> (forall x, bok l i x = true -> m2 x = m1 x) -> bpost l i m1 -> bpost l i m2.
  Proof.
    intros H Hx (B1 & B2 & B3). pose proof (node_bounds n l i H64 H) as [S1 _].
    split; [|split].
    - intros y Hy. rewrite Hx by (now apply bok_dst). now apply B1.
    - intros Hl y Hy. rewrite Hx by (now apply bok_dst). now apply B2.
    - intros Hl Hi. rewrite Hx; [now apply B3|]. apply bok_dst. subst i. change (lo_ n l 0) with 0 in *. lia.
  Qed.
  Lemma bdis l i l' i' x : gnode 1 3 l i -> gnode 1 3 l' i' -> ~ under l i l' i' -> ~ under l' i' l i ->
    bok l i x = true -> bok l' i' x = true -> False.
  Proof. intros. eapply (nok_disjoint src dst lw pw n H64 HL l i l' i' (x / 2)); eassumption. Qed.

  Definition ltv (a b : vec 2) : bool := lexl (proj1_sig a) (proj1_sig b).
  Lemma bleaf i : gnode 1 3 0 i -> wp (bok 0%nat i) (sort_leaf_string F 2 src dst lw n i) (fun _ => bpost 0 i) m.
  Proof.
    intros H. unfold sort_leaf_string. rewrite node_first_is, node_size_is, node_ws_is by exact H.
    pose proof (node_bounds n 0 i H64 H) as [S1 S2]. pose proof (node_range n H64 0 i H) as (R1 & R2 & R3 & R4 & R5).
    pose proof (bok_dst 0 i) as O1. pose proof (bok_src 0 i) as O2.
    change (Z.of_nat 2) with 2.
    assert (Hsort : forall m1, (forall y, 2 * (dst + lo_ n 0 i) <= y < 2 * (dst + hi_ n 0 i) -> m1 y = pat y) ->
      wp (bok 0 i) (blift 2 (mergesort0string_ F LT_vec true F (dst + lo_ n 0 i) (dst + lo_ n 0 i + (hi_ n 0 i - lo_ n 0 i)) (lw + i * 2 ^ Z.of_nat 0 * AllocChunk n))) (fun _ => bpost 0 i) m1).
    { intros m1 H1. replace (dst + lo_ n 0 i + (hi_ n 0 i - lo_ n 0 i)) with (dst + hi_ n 0 i) by lia.
      set (a := dst + lo_ n 0 i) in *. set (b := dst + hi_ n 0 i) in *.
      apply (blift_ok 2 (nodeok src dst lw pw n 0 i)) with (M := view 2 m1) (m0 := m1)
        (Q := fun _ M' => forall x, a <= x < b -> M' x = ba).
      - intros x y Hx Hy. unfold bok. change (Z.of_nat 2) with 2 in Hy. replace (y / 2) with x by dm. exact Hx.
      - reflexivity.
      - reflexivity.
      - intros m' M' E _ G. assert (G' : forall y, 2 * a <= y < 2 * b -> m' y = pat y).
        { intros y Hy. pose proof (half y). apply (ba_view m' (y / 2)); [|lia]. rewrite <- E. apply G. lia. }
        split; [|split]; fold a b; [|intros _; exact G'|intros; lia]. intros y Hy. rewrite G' by exact Hy. apply pat_ab.
      - apply (mergesort0string_ok F LT_vec ltv (fun _ => True)); auto; try lia.
        + intros x y _ _. unfold LT_vec, ltv. f_equal. apply string_lexl. now rewrite (proj2_sig x), (proj2_sig y).
        + exact (sw_pull _ _ sw_lexl).
        + destruct HL as [L1 L2 L3 L4 L5 L6]. unfold disjoint in *. unfold a, b in *. dm.
        + intros x Hx. unfold nodeok, inr_. fold a b. lia.
        + intros x Hx. unfold nodeok, inr_. unfold a, b in *. replace (dst + hi_ n 0 i - (dst + lo_ n 0 i)) with (hi_ n 0 i - lo_ n 0 i) in Hx by lia.
          set (z := (hi_ n 0 i - lo_ n 0 i) / 2) in *. lia.
        + intros M' (P1 & _). apply (seg_perm_all (fun v => v = ba) (view 2 m1)); [apply P1|].
          intros x Hx. apply view_ba; apply H1; lia. }
    destruct (Z.eqb_spec src dst) as [E|E].
    - apply wp_bind, wp_ret. apply Hsort. intros y Hy. apply Hm. lia.
    - destruct HL as [L1 L2 L3 L4 L5 L6]. unfold disjoint in *. apply memcpy_ok.
      + lia.
      + intros k Hk. split; [apply O2|apply O1]; lia.
      + lia.
      + intros m1 C1 _. apply Hsort. intros y Hy.
        replace y with (2 * (dst + lo_ n 0 i) + (y - 2 * (dst + lo_ n 0 i))) by lia. rewrite C1 by lia. rewrite Hm by lia.
        unfold pat. f_equal. dm.
  Qed.

  Lemma bmerge l i m1 : gnode 1 3 (S l) i -> bpost l (2 * i) m1 -> bpost l (2 * i + 1) m1 ->
    wp (bok (S l) i) (merge_node_bytes F 2 dst pw n (S l) i) (fun _ => bpost (S l) i) m1.
  Proof.
    intros H (A1 & A2 & A3) (B1 & B2 & _). unfold merge_node_bytes. rewrite node_first_is, node_size_is, node_ws_is by exact H.
    pose proof (node_mid n l i ltac:(lia) H) as (M1 & M2 & M3 & M4).
    pose proof (node_bounds n (S l) i H64 H) as [S1 S2].
    pose proof (node_range n H64 (S l) i H) as (R1 & R2 & R3 & R4 & R5).
    change (Z.of_nat 2) with 2.
    assert (Hab : forall x, 2 * (dst + lo_ n (S l) i) <= x < 2 * (dst + hi_ n (S l) i) -> ab (m1 x)).
    { intros x Hx. destruct (Z.lt_ge_cases x (2 * (dst + hi_ n l (2 * i)))); [apply A1|apply B1]; lia. }
    set (a := lo_ n (S l) i) in *. set (b := hi_ n (S l) i) in *.
    assert (L3 := L_dp _ _ _ _ _ HL). unfold disjoint in L3. clear Hm HL. set (h := (b - a) / 2) in *.
    apply byte_merge_ok; fold h; try lia; unfold disjoint; try lia.
    - intros x Hx. apply bok_dst. fold a b. lia.
    - intros x Hx. apply bok_pw. lia.
    - intros x Hx. apply Hab. lia.
    - intros m' Q1 Q2 Q3. split; [|split].
      + intros y Hy. fold a b in Hy. apply Q1. lia.
      + discriminate.
      + intros _ ->. assert (Ea : a = 0) by reflexivity. rewrite Ea, Z.add_0_r in *.
        destruct l as [|l].
        * (* level 1: bytes are still "baba...", and the middle is odd *)
          assert (Eh : h = 2 * q + 1).
          { unfold h. rewrite Ea. unfold b, hi_. ev. rewrite Hn. clear - Hq. dm. }
          assert (Eb : b = 2 * h) by (rewrite Eh; unfold b, hi_; ev; rewrite Hn; clear - Hq; dm).
          assert (P : forall y, 2 * dst <= y < 2 * (dst + b) -> m1 y = pat y).
          { intros y Hy. destruct (Z.lt_ge_cases y (2 * (dst + hi_ n 0 0))); [apply A2|apply B2]; try reflexivity; change (2 * 0) with 0 in *; try lia. }
          rewrite Q3; rewrite ?P by lia; unfold pat; rewrite Eh; clear; dm.
        * rewrite A3 in Q2 by lia. destruct Q2 as [Q2|[Q2 Q4]]; [exact Q2|]. destruct (Hab (2 * dst + h) ltac:(lia)); lia.
    - intros x Hx. apply bok_dst. fold a b. lia.
  Qed.

  Notation run sched := (par_sort_string F 2 src dst lw pw n wakeup zz m sched).
  Lemma bytes_result sched : returned (run sched) -> pm (run sched) (2 * dst) = 97.
  Proof.
    intros Hret. destruct (tree_result _ _ 1 3 wakeup zz m bok bpost Hw ltac:(lia) bleaf bmerge bpost_frame bdis sched 0 Hret) as (H1 & _).
    specialize (H1 0 ltac:(lia)). destruct H1 as (_ & _ & H1). apply H1; [lia|reflexivity].
  Qed.
  Lemma bytes_can_return sched : 1 <= wakeup -> exists sched', returned (run (sched ++ sched')).
  Proof. intros W1. exact (tree_can_return _ _ 1 3 wakeup zz m bok bpost Hw ltac:(lia) bleaf bmerge bpost_frame bdis W1 sched). Qed.
End ByteStr.

(** the string stored at item x of a byte memory, items of L bytes *)
Definition string_at (L : nat) (m : Z -> Z) (x : Z) : list Z := map m (zseq (Z.of_nat L * x) L).

(** C37, sort: n = 16 q + 8 copies of "ba", for every q >= 4 (the code goes on threads from 65536 items: q = 4096) and every schedule.
    The first string of the result is none of the strings given: it starts with "a". *)
Theorem C37_string_sort_refuted F src dst lw pw n q wakeup zz (m : Z -> Z) sched :
  n = 16 * q + 8 -> 4 <= q -> 4 * n + 1 < Z.of_nat F -> 0 <= wakeup -> layout src dst lw pw n ->
  (forall i, 0 <= i < n -> string_at 2 m (src + i) = [98; 97]) ->
  let s := par_sort_string F 2 src dst lw pw n wakeup zz m sched in
  (returned s -> forall i, 0 <= i < n -> string_at 2 (pm s) dst <> string_at 2 m (src + i)) /\
  (1 <= wakeup -> exists sched', returned (par_sort_string F 2 src dst lw pw n wakeup zz m (sched ++ sched'))).
Proof.
  intros En Hq HF Hw HL Hm s.
  assert (Hm' : forall y, 2 * src <= y < 2 * (src + n) -> m y = pat y).
  { intros y Hy. pose proof (half y). apply (ba_view m (y / 2)); [|lia]. apply vec_eq. cbn [proj1_sig ba].
    replace (y / 2) with (src + (y / 2 - src)) by lia. apply Hm. lia. }
  assert (En' : n = 8 * (2 * q + 1)) by lia. split.
  - intros Hret i Hi. rewrite Hm by exact Hi. intros E. unfold string_at in E. cbn [zseq map] in E. change (Z.of_nat 2) with 2 in E.
    injection E as E _. unfold s in E. rewrite (bytes_result F src dst lw pw n q wakeup zz m En' Hq HF HL Hm' Hw sched Hret) in E. discriminate.
  - exact (bytes_can_return F src dst lw pw n q wakeup zz m En' Hq HF HL Hm' Hw sched).
Qed.

(** * C38: strided arrays *)
(** the n elements a view with this stride shows *)
Definition viewed {T} (m : Z -> T) (src stride n : Z) : list T := map (fun i => m (src + i * stride)) (zrange 0 n).

(** C38 below the threading threshold: pn.sort of a view of any stride (also 0 and negative) sorts exactly the viewed elements.
    The output array and the workspace must not overlap the view. *)
Theorem C38_alone_partial {T} (lt LE : T -> T -> bool) isnan :
  strict_weak lt ->
  (forall l r, isnan r = false -> LE l r = negb (lt r l)) ->
  (forall x y, isnan x = true -> lt x y = false) ->
  (forall x y, isnan x = true -> isnan y = false -> lt y x = true) ->
  forall mode F src stride dst n ws (m : Z -> T),
  0 <= n < 2 ^ 63 -> 2 * n + 1 < Z.of_nat F -> disjoint dst n ws (n / 2) ->
  (forall i, 0 <= i < n -> ~ (dst <= src + i * stride < dst + n)) ->
  exists m', exec (fun _ => true) (sort_alone F (fun x y => Some (lt x y)) LE isnan mode src stride dst n ws) m = Finished tt m' /\
    Permutation (items m' dst (dst + n)) (viewed m src stride n) /\ ascending lt m' dst n /\
    (forall x, ~ (dst <= x < dst + n) -> ~ (ws <= x < ws + n / 2) -> m' x = m x).
Proof.
  intros SW N1 N2 N3 mode F src stride dst n ws m Hn HF Hd Hv.
  assert (Hw : wp (fun _ => true) (sort_alone F (fun x y => Some (lt x y)) LE isnan mode src stride dst n ws)
    (fun _ m' => Permutation (items m' dst (dst + n)) (viewed m src stride n) /\ ascending lt m' dst n /\
       (forall x, ~ (dst <= x < dst + n) -> ~ (ws <= x < ws + n / 2) -> m' x = m x)) m).
  { unfold sort_alone, copy_strided.
    eapply wp_loop_b with (Inv := fun k m' => 0 <= k <= n /\ (forall i, 0 <= i < k -> m' (dst + i) = m (src + i * stride)) /\ same_out m m' dst (dst + n))
      (meas := fun k => n - k)
      (P := fun _ m' => (forall i, 0 <= i < n -> m' (dst + i) = m (src + i * stride)) /\ same_out m m' dst (dst + n)).
    - intros k m' (Hk & H1 & H2). destruct (k <? n) eqn:E.
      + apply wp_rd; [reflexivity|]. apply wp_st; [reflexivity|]. apply wp_ret. split; [|lia]. split; [lia|]. split.
        * intros i Hi. destruct (Z.eq_dec i k) as [->|Hne].
          -- rewrite zupd_eq. apply H2. apply Hv. lia.
          -- rewrite zupd_neq by lia. apply H1. lia.
        * intros x Hx. rewrite zupd_neq by lia. now apply H2.
      + apply wp_ret. split; [intros i Hi; apply H1; lia|exact H2].
    - intros k m' (Hk & _). lia.
    - split; [lia|]. split; [intros; lia|intros x _; reflexivity].
    - lia.
    - intros [] m1 [H1 H2].
      assert (Es : seg m1 dst (dst + n) = viewed m src stride n).
      { unfold viewed. change (map (fun i => m (src + i * stride)) (zrange 0 n)) with (seg (fun i => m (src + i * stride)) 0 n).
        replace (dst + n) with (dst + (n - 0)) by lia. apply seg_shift. intros x Hx. rewrite Z.sub_0_r. now apply H1. }
      apply (in_place_leaf F lt LE isnan mode n SW N1 N2 N3); auto; try lia.
      intros m' R1 R2 R3. split; [|split].
      + rewrite <- Es. exact (rel_of_perm _ _ _ _ R1).
      + intros i j Hi Hj. apply R2; lia.
      + intros x Hx Hx2. rewrite R3 by assumption. now apply H2. }
  apply wp_exec in Hw. destruct Hw as ([] & m' & He & H). exists m'. split; [exact He|exact H].
Qed.

(** C38 on threads: for every stride but 1 (and, here, -1 and 0) the result is not a permutation of the viewed elements *)
Theorem C38_threaded_refuted mode F src stride dst lw pw n wakeup zz (m : Z -> Z) sched :
  2 <= Z.abs stride -> 64 <= n < 2 ^ 63 -> 2 * n + 1 < Z.of_nat F -> 1 <= wakeup -> layout src dst lw pw n ->
  (forall i, 0 <= i < n -> m (src + i) = i) -> (forall i, 0 <= i < n -> m (src + i * stride) = i * stride) ->
  let run sched := sort_threaded F LT_int Z.leb (fun _ => false) mode src stride dst lw pw n wakeup zz m sched in
  (returned (run sched) -> ~ Permutation (items (pm (run sched)) dst (dst + n)) (viewed m src stride n)) /\
  exists sched', returned (run (sched ++ sched')).
Proof.
  intros Hs Hn HF Hw HL Hm1 Hm2 run. split.
  - intros Hret P.
    destruct (C33_par_sort Z.ltb Z.leb (fun _ => false) sw_int ltac:(intros; lia) ltac:(intros; lia) ltac:(intros; lia)
      mode F src dst lw pw n wakeup zz m sched Hn HF ltac:(lia) HL Hret) as (H1 & _).
    assert (Hin : In ((n - 1) * stride) (viewed m src stride n)).
    { unfold viewed. apply in_map_iff. exists (n - 1). split; [apply Hm2; lia|apply zrange_In; lia]. }
    eapply Permutation_in in Hin; [|apply Permutation_sym; exact P].
    eapply Permutation_in in Hin; [|exact H1].
    unfold items in Hin. apply in_map_iff in Hin. destruct Hin as (x & Ex & Hx). apply zrange_In in Hx.
    replace x with (src + (x - src)) in Ex by lia. rewrite Hm1 in Ex by lia. nia.
  - exact (C33_can_return Z.ltb Z.leb (fun _ => false) sw_int ltac:(intros; lia) ltac:(intros; lia) ltac:(intros; lia)
      mode F src dst lw pw n wakeup zz m sched Hn HF Hw HL).
Qed.

(** * Examples: the hypotheses are met *)
(** 64 strings, row 0 "b" and the others "a": three workers taking turns end with the "b" in the middle *)
Example argsort_string_case :
  let s := par_argsort_string 140 (col_of 64 b_then_a) 0 100 64 3 false (fun x => x) (turns 900) in
  returned s /\ items (pm s) 0 9 = [1; 2; 3; 4; 5; 6; 7; 0; 8].
Proof. vm_compute. repeat split. Qed.
Example arg_layout_case : arg_layout 0 100 64 /\ items (fun x => x) 0 (0 + 64) = zrange 0 64.
Proof. split; [unfold arg_layout, disjoint, AllocChunk, NumCores; cbn; lia|reflexivity]. Qed.
(** 72 strings "ba" *)
Example sort_string_case :
  let s := par_sort_string 300 2 0 0 1000 200 72 3 false (fun y => if Z.even y then 98 else 97) (turns 2500) in
  returned s /\ string_at 2 (pm s) 0 = [97; 98].
Proof. vm_compute. repeat split. Qed.
(** every second of the integers 0, 1, 2, ... *)
Example strided_case :
  let s := sort_threaded 140 LT_int Z.leb (fun _ => false) QSORT 0 2 1000 3000 2000 64 3 false (fun x => x) (turns 900) in
  returned s /\ items (pm s) 1000 1004 = [0; 1; 2; 3] /\ layout 0 1000 3000 2000 64.
Proof. split; [vm_compute; reflexivity|]. split; [vm_compute; reflexivity|]. constructor; unfold disjoint, AllocChunk, NumCores; cbn; lia. Qed.
Example strided_alone_case :
  exists m', exec (fun _ => true) (sort_alone 40 LT_int Z.leb (fun _ => false) QSORT 20 (-2) 100 8 200) (fun x => 20 - x) = Finished tt m' /\
   items m' 100 108 = [0; 2; 4; 6; 8; 10; 12; 14].
Proof. eexists. split; vm_compute; reflexivity. Qed.

Print Assumptions C37_string_argsort_refuted.
Print Assumptions C37_string_sort_refuted.
Print Assumptions C38_alone_partial.
Print Assumptions C38_threaded_refuted.
