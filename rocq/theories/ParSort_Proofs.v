(** ParSort_Proofs.v - the merge tree with the real layout. *)
From Verif Require Import Base Threads_Model Sort_Model SortCmp_Model Sort_Base_Proofs Sort_Insert_Proofs
  Sort_Merge_Base_Proofs Sort_Merge_Proofs ParSort_Model ParSort_Tree_Proofs.

(** ** EndPositions *)
Ltac dm := Z.div_mod_to_equations; lia.
(** compute EndPositions at literal places *)
Ltac ev := repeat match goal with |- context [EndPositions ?n ?k] =>
  let k' := eval vm_compute in k in
  let e := eval cbv beta iota zeta delta [EndPositions Z.eqb Pos.eqb] in (EndPositions n k') in
  change (EndPositions n k) with e end;
  repeat match goal with |- context [2 ^ Z.of_nat ?l] => let e := eval vm_compute in (2 ^ Z.of_nat l) in change (2 ^ Z.of_nat l) with e end.

Lemma E_step n k : 0 <= n -> 0 <= k < 8 -> EndPositions n k <= EndPositions n (k + 1).
Proof.
  intros Hn Hk. assert (C : k = 0 \/ k = 1 \/ k = 2 \/ k = 3 \/ k = 4 \/ k = 5 \/ k = 6 \/ k = 7) by lia.
  repeat destruct C as [-> | C]; try subst k; ev; dm.
Qed.
Lemma E_mono n a b : 0 <= n -> 0 <= a <= b -> b <= 8 -> EndPositions n a <= EndPositions n b.
Proof.
  intros Hn Ha Hb. replace b with (a + (b - a)) in * by lia. assert (Hd : 0 <= b - a) by lia.
  set (d := b - a) in *. clearbody d. clear b. revert Hb. pattern d. apply natlike_ind; [| |exact Hd].
  - intros _. rewrite Z.add_0_r. lia.
  - intros x Hx IH Hb. specialize (IH ltac:(lia)). pose proof (E_step n (a + x) Hn ltac:(lia)).
    replace (a + Z.succ x) with (a + x + 1) by lia. lia.
Qed.
Lemma E_0 n : EndPositions n 0 = 0. Proof. reflexivity. Qed.
Lemma E_8 n : EndPositions n 8 = n. Proof. reflexivity. Qed.

Definition lo_ (n : Z) (l : nat) (i : Z) : Z := EndPositions n (i * 2 ^ Z.of_nat l).
Definition hi_ (n : Z) (l : nat) (i : Z) : Z := EndPositions n ((i + 1) * 2 ^ Z.of_nat l).

Lemma node3 l i : gnode 1 3 l i -> 0 <= i * 2 ^ Z.of_nat l /\ i * 2 ^ Z.of_nat l < (i + 1) * 2 ^ Z.of_nat l /\ (i + 1) * 2 ^ Z.of_nat l <= 8.
Proof.
  intros [H1 H2]. pose proof (pow2_pos l).
  assert (E : 2 ^ Z.of_nat (3 - l) * 2 ^ Z.of_nat l = 8).
  { rewrite <- Z.pow_add_r by lia. replace (Z.of_nat (3 - l) + Z.of_nat l) with 3 by lia. reflexivity. }
  nia.
Qed.
Lemma node_first_is n l i : node_first n l i = lo_ n l i. Proof. reflexivity. Qed.
Lemma node_root i : gnode 1 3 3 i -> i = 0. Proof. intros [_ H]. cbn in H. lia. Qed.
Lemma node_size_is n l i : gnode 1 3 l i -> node_size n l i = hi_ n l i - lo_ n l i.
Proof.
  intros H. unfold node_size, NumLevels. destruct (Nat.eqb_spec l 3) as [->|]; [|reflexivity].
  apply node_root in H. subst i. unfold hi_, lo_. cbn - [EndPositions]. rewrite E_8, E_0. lia.
Qed.
Lemma node_ws_is n l i : gnode 1 3 l i -> node_ws n l i = i * 2 ^ Z.of_nat l * AllocChunk n.
Proof.
  intros H. unfold node_ws, NumLevels. destruct (Nat.eqb_spec l 3) as [->|]; [|reflexivity].
  apply node_root in H. subst i. reflexivity.
Qed.

Ltac node_cases l i H :=
  let C := fresh in
  assert (C : (l = 0%nat /\ 0 <= i < 8) \/ (l = 1%nat /\ 0 <= i < 4) \/ (l = 2%nat /\ 0 <= i < 2) \/ (l = 3%nat /\ i = 0));
  [ let H1 := fresh in let H2 := fresh in destruct H as [H1 H2];
    destruct l as [|[|[|[|]]]]; cbn in H2; lia | ].

(** sizes: every part and merge has at least two items and fits in its share of the workspace *)
Lemma node_bounds n l i : 64 <= n -> gnode 1 3 l i ->
  2 <= hi_ n l i - lo_ n l i <= n /\ (hi_ n l i - lo_ n l i) / 2 <= 2 ^ Z.of_nat l * AllocChunk n.
Proof.
  intros Hn H. unfold hi_, lo_, AllocChunk, NumCores.
  node_cases l i H. destruct H0 as [[-> C]|[[-> C]|[[-> C]|[-> ->]]]].
  - assert (D : i = 0 \/ i = 1 \/ i = 2 \/ i = 3 \/ i = 4 \/ i = 5 \/ i = 6 \/ i = 7) by lia.
    repeat destruct D as [-> | D]; try subst i; ev; dm.
  - assert (D : i = 0 \/ i = 1 \/ i = 2 \/ i = 3) by lia.
    repeat destruct D as [-> | D]; try subst i; ev; dm.
  - assert (D : i = 0 \/ i = 1) by lia.
    repeat destruct D as [-> | D]; try subst i; ev; dm.
  - ev; dm.
Qed.

(** the middle of a merge is where its two halves meet *)
Lemma node_mid n l i : 0 <= n -> gnode 1 3 (S l) i ->
  lo_ n (S l) i = lo_ n l (2 * i) /\ hi_ n (S l) i = hi_ n l (2 * i + 1) /\
  hi_ n l (2 * i) = lo_ n l (2 * i + 1) /\
  lo_ n (S l) i + (hi_ n (S l) i - lo_ n (S l) i) / 2 = hi_ n l (2 * i).
Proof.
  intros Hn H. assert (P : 2 ^ Z.of_nat (S l) = 2 * 2 ^ Z.of_nat l) by apply pow2_S.
  split; [unfold lo_; f_equal; nia|]. split; [unfold hi_; f_equal; nia|]. split; [unfold hi_, lo_; f_equal; nia|].
  unfold hi_, lo_. set (L := S l) in *. node_cases L i H. unfold L in *. clear L.
  destruct H0 as [[E C]|[[E C]|[[E C]|[E ->]]]]; try discriminate; injection E as ->.
  - assert (D : i = 0 \/ i = 1 \/ i = 2 \/ i = 3) by lia.
    repeat destruct D as [-> | D]; try subst i; ev; dm.
  - assert (D : i = 0 \/ i = 1) by lia.
    repeat destruct D as [-> | D]; try subst i; ev; dm.
  - ev; dm.
Qed.

(** unrelated nodes cover disjoint ranges of parts *)
Lemma unrelated_apart l i l' i' : 0 <= i -> 0 <= i' -> ~ under l i l' i' -> ~ under l' i' l i ->
  (i + 1) * 2 ^ Z.of_nat l <= i' * 2 ^ Z.of_nat l' \/ (i' + 1) * 2 ^ Z.of_nat l' <= i * 2 ^ Z.of_nat l.
Proof.
  assert (G : forall l i l' i', (l <= l')%nat -> ~ under l i l' i' ->
    (i + 1) * 2 ^ Z.of_nat l <= i' * 2 ^ Z.of_nat l' \/ (i' + 1) * 2 ^ Z.of_nat l' <= i * 2 ^ Z.of_nat l).
  { clear. intros l i l' i' Hl Hu.
    assert (E : 2 ^ Z.of_nat l' = 2 ^ Z.of_nat (l' - l) * 2 ^ Z.of_nat l).
    { rewrite <- Z.pow_add_r by lia. f_equal. lia. }
    assert (Hne : i' <> i / 2 ^ Z.of_nat (l' - l)) by (intros H; apply Hu; split; assumption).
    pose proof (pow2_pos (l' - l)) as P1. pose proof (pow2_pos l) as P2. rewrite E.
    set (d := 2 ^ Z.of_nat (l' - l)) in *. set (e := 2 ^ Z.of_nat l) in *.
    pose proof (Z.div_mod i d ltac:(lia)). pose proof (Z.mod_pos_bound i d ltac:(lia)). set (q := i / d) in *.
    destruct (Z.lt_ge_cases q i'); [left|right].
    - assert (i + 1 <= i' * d) by nia. nia.
    - assert ((i' + 1) * d <= i) by nia. nia. }
  intros Hi Hi' H1 H2. destruct (Nat.le_ge_cases l l') as [H|H]; [now apply G|].
  destruct (G l' i' l i H H2); [right|left]; assumption.
Qed.

(** ** the tree *)
Definition disjoint (a n b k : Z) : Prop := a + n <= b \/ b + k <= a.
(** destination array, source array (the same one when sorting in place), shared workspace and the callbacks' own blocks *)
Record layout (src dst lw pw n : Z) : Prop := {
  L_src : src = dst \/ disjoint src n dst n;
  L_lw : lw = pw \/ disjoint lw (8 * AllocChunk n) pw (8 * AllocChunk n);
  L_dp : disjoint dst n pw (8 * AllocChunk n);
  L_dl : disjoint dst n lw (8 * AllocChunk n);
  L_sp : disjoint src n pw (8 * AllocChunk n);
  L_sl : disjoint src n lw (8 * AllocChunk n) }.

Section Geometry.
  Variables (src dst lw pw n : Z).
  Hypothesis Hn : 64 <= n.
  Notation C := (AllocChunk n).
  Definition nodeok (l : nat) (i : Z) (x : Z) : bool :=
    inr_ (dst + lo_ n l i) (dst + hi_ n l i) x || inr_ (src + lo_ n l i) (src + hi_ n l i) x ||
    inr_ (pw + i * 2 ^ Z.of_nat l * C) (pw + (i + 1) * 2 ^ Z.of_nat l * C) x ||
    inr_ (lw + i * 2 ^ Z.of_nat l * C) (lw + (i + 1) * 2 ^ Z.of_nat l * C) x.

  Lemma C_pos : 0 < C. Proof. unfold AllocChunk, NumCores. dm. Qed.

  Lemma node_range l i : gnode 1 3 l i -> 0 <= lo_ n l i /\ lo_ n l i <= hi_ n l i <= n /\
    0 <= i * 2 ^ Z.of_nat l * C /\ i * 2 ^ Z.of_nat l * C + 2 ^ Z.of_nat l * C = (i + 1) * 2 ^ Z.of_nat l * C /\ (i + 1) * 2 ^ Z.of_nat l * C <= 8 * C.
  Proof.
    intros H. pose proof (node3 l i H) as (A1 & A2 & A3). pose proof C_pos. unfold lo_, hi_.
    pose proof (E_mono n 0 (i * 2 ^ Z.of_nat l) ltac:(lia) ltac:(lia) ltac:(lia)).
    pose proof (E_mono n (i * 2 ^ Z.of_nat l) ((i + 1) * 2 ^ Z.of_nat l) ltac:(lia) ltac:(lia) ltac:(lia)).
    pose proof (E_mono n ((i + 1) * 2 ^ Z.of_nat l) 8 ltac:(lia) ltac:(lia) ltac:(lia)). rewrite E_0, E_8 in *.
    repeat split; try lia; nia.
  Qed.

  Hypothesis HL : layout src dst lw pw n.
  Lemma nok_disjoint l i l' i' x : gnode 1 3 l i -> gnode 1 3 l' i' -> ~ under l i l' i' -> ~ under l' i' l i ->
    nodeok l i x = true -> nodeok l' i' x = true -> False.
  Proof.
    intros N N' U U'. pose proof (node_range l i N) as (A1 & A2 & A3 & A4 & A5).
    pose proof (node_range l' i' N') as (B1 & B2 & B3 & B4 & B5).
    assert (Hs : (hi_ n l i <= lo_ n l' i' /\ (i + 1) * 2 ^ Z.of_nat l * C <= i' * 2 ^ Z.of_nat l' * C) \/
                 (hi_ n l' i' <= lo_ n l i /\ (i' + 1) * 2 ^ Z.of_nat l' * C <= i * 2 ^ Z.of_nat l * C)).
    { pose proof C_pos. pose proof (node3 l i N). pose proof (node3 l' i' N').
      destruct (unrelated_apart l i l' i') as [H'|H']; try assumption; try (destruct N, N'; lia).
      - left. split; [unfold hi_, lo_; apply E_mono; lia|nia].
      - right. split; [unfold hi_, lo_; apply E_mono; lia|nia]. }
    destruct HL as [L1 L2 L3 L4 L5 L6]. unfold disjoint in *. unfold nodeok, inr_.
    set (a := lo_ n l i) in *. set (b := hi_ n l i) in *. set (a' := lo_ n l' i') in *. set (b' := hi_ n l' i') in *.
    set (u := i * 2 ^ Z.of_nat l * C) in *. set (v := (i + 1) * 2 ^ Z.of_nat l * C) in *.
    set (u' := i' * 2 ^ Z.of_nat l' * C) in *. set (v' := (i' + 1) * 2 ^ Z.of_nat l' * C) in *.
    clearbody a b a' b' u v u' v'. clear - L1 L2 L3 L4 L5 L6 A1 A2 A3 A4 A5 B1 B2 B3 B4 B5 Hs. lia.
  Qed.

End Geometry.

Section Par.
  Context {T : Type}.
  Variables (F : nat) (LT : T -> T -> option bool) (lt : T -> T -> bool) (P : T -> Prop).
  Hypothesis LT_ok : forall x y, P x -> P y -> LT x y = Some (lt x y).
  Hypothesis SW : strict_weak lt.
  Variable rel : list T -> list T -> Prop.
  Hypothesis rel_perm : forall l l', rel l l' -> Permutation l' l.
  Hypothesis rel_srel : forall l l', srel lt l l' -> rel l l'.
  Hypothesis rel_trans : forall a b c, rel a b -> rel b c -> rel a c.
  Hypothesis rel_app : forall a a' b b', rel a a' -> rel b b' -> rel (a ++ b) (a' ++ b').
  Variable leafsort : Z -> Z -> Z -> prog T unit.   (* start, size, workspace *)
  Variables (src dst lw pw n W : Z) (zz : bool) (m0 : Z -> T).
  Hypothesis HW : 0 <= W.
  Hypothesis Hn : 64 <= n.
  Hypothesis HF : n < Z.of_nat F.
  Hypothesis HL : layout src dst lw pw n.
  Hypothesis HP0 : forall x, src <= x < src + n -> P (m0 x).
  Hypothesis leafsort_ok : forall start size ws m ok (Q : unit -> (Z -> T) -> Prop),
    0 <= size <= n -> disjoint start size ws (size / 2) ->
    (forall x, start <= x < start + size -> ok x = true) -> (forall x, ws <= x < ws + size / 2 -> ok x = true) ->
    (forall x, start <= x < start + size -> P (m x)) ->
    (forall m', rel (seg m start (start + size)) (seg m' start (start + size)) -> sorted_seg lt m' start (start + size) ->
       same_out2 m m' start (start + size) ws (ws + size / 2) -> Q tt m') ->
    wp ok (leafsort start size ws) Q m.

  Definition gleaf (i : Z) : prog T unit :=
    (if src =? dst then Ret tt else memcpy F (dst + node_first n 0 i) (src + node_first n 0 i) (node_size n 0 i)) ;;
    leafsort (dst + node_first n 0 i) (node_size n 0 i) (lw + node_ws n 0 i).

  Notation C := (AllocChunk n).
  Notation nok := (nodeok src dst lw pw n).
  Definition npost (l : nat) (i : Z) (m : Z -> T) : Prop :=
    rel (seg m0 (src + lo_ n l i) (src + hi_ n l i)) (seg m (dst + lo_ n l i) (dst + hi_ n l i)) /\
    sorted_seg lt m (dst + lo_ n l i) (dst + hi_ n l i) /\
    (src <> dst -> forall x, src + lo_ n l i <= x < src + hi_ n l i -> m x = m0 x).

  Lemma npost_frame l i m m' : gnode 1 3 l i -> (forall x, nok l i x = true -> m' x = m x) -> npost l i m -> npost l i m'.
  Proof.
    intros N Hx (H1 & H2 & H3).
    assert (G : forall x, dst + lo_ n l i <= x < dst + hi_ n l i -> m' x = m x) by (intros x Hr; apply Hx; unfold nodeok, inr_; lia).
    split; [|split].
    - rewrite (seg_ext m' m) by exact G. exact H1.
    - intros a b Hab Hb. rewrite !G by lia. now apply H2.
    - intros Hne x Hr. rewrite Hx by (unfold nodeok, inr_; lia). now apply H3.
  Qed.

  Lemma merge_post l i m : gnode 1 3 (S l) i -> npost l (2 * i) m -> npost l (2 * i + 1) m ->
    wp (nok (S l) i) (merge_node F LT dst pw n (S l) i) (fun _ => npost (S l) i) m.
  Proof.
    intros N (A1 & A2 & A3) (B1 & B2 & B3). unfold merge_node. rewrite node_first_is, node_size_is, node_ws_is by exact N.
    pose proof (node_mid n l i ltac:(lia) N) as (M1 & M2 & M3 & M4). pose proof (node_bounds n (S l) i Hn N) as [S1 S2].
    pose proof (node_range n Hn (S l) i N) as (R1 & R2 & R3 & R4 & R5).
    rewrite <- M1 in A1, A2, A3. rewrite <- M2, <- M3 in B1, B2, B3.
    assert (Hm1 : lo_ n (S l) i <= hi_ n l (2 * i) <= hi_ n (S l) i) by (rewrite <- M4; dm).
    rewrite <- M4 in *. set (a := lo_ n (S l) i) in *. set (b := hi_ n (S l) i) in *.
    set (u := i * 2 ^ Z.of_nat (S l) * C) in *. set (v := (i + 1) * 2 ^ Z.of_nat (S l) * C) in *.
    assert (Ha : src + a <= src + (a + (b - a) / 2) <= src + b) by lia.
    assert (Ha' : dst + a <= dst + (a + (b - a) / 2) <= dst + b) by lia.
    assert (Hwd : forall x, nok (S l) i x = (inr_ (dst + a) (dst + b) x || inr_ (src + a) (src + b) x || inr_ (pw + u) (pw + v) x || inr_ (lw + u) (lw + v) x)) by reflexivity.
    apply (par_merge_ok F LT lt P LT_ok SW); try lia.
    - destruct HL as [L1 L2 L3 L4 L5 L6]. unfold disjoint in *. lia.
    - intros x Hx. rewrite Hwd. unfold inr_. lia.
    - intros x Hx. rewrite Hwd. unfold inr_. lia.
    - assert (Hpm : Permutation (seg m (dst + a) (dst + b)) (seg m0 (src + a) (src + b))).
      { rewrite (seg_split m _ _ _ Ha'), (seg_split m0 _ _ _ Ha). apply Permutation_app; now apply rel_perm. }
      intros x Hx. assert (HI : In (m x) (seg m0 (src + a) (src + b))).
      { eapply Permutation_in; [exact Hpm|]. apply seg_In. exists x. split; [lia|reflexivity]. }
      apply seg_In in HI. destruct HI as (y & Hy & <-). apply HP0. lia.
    - replace (dst + a + (b - a) / 2) with (dst + (a + (b - a) / 2)) by lia. exact A2.
    - replace (dst + a + (b - a) / 2) with (dst + (a + (b - a) / 2)) by lia. replace (dst + a + (b - a)) with (dst + b) by lia. exact B2.
    - replace (dst + a + (b - a)) with (dst + b) by lia. intros m' (H1 & H2 & H3). unfold npost. fold a b. split; [|split].
      + eapply rel_trans; [|apply rel_srel; exact H1].
        rewrite (seg_split m _ _ _ Ha'), (seg_split m0 _ _ _ Ha). now apply rel_app.
      + exact H2.
      + intros Hne x Hx. rewrite H3.
        * destruct (Z.lt_ge_cases x (src + (a + (b - a) / 2))); [apply A3; [exact Hne|lia]|apply B3; [exact Hne|lia]].
        * destruct HL as [L1 L2 L3 L4 L5 L6]. unfold disjoint in *. lia.
        * destruct HL as [L1 L2 L3 L4 L5 L6]. unfold disjoint in *. lia.
  Qed.

  Lemma leaf_post i : gnode 1 3 0 i -> wp (nok 0 i) (gleaf i) (fun _ => npost 0 i) m0.
  Proof.
    intros N. unfold gleaf. rewrite node_first_is, node_size_is, node_ws_is by exact N.
    pose proof (node_bounds n 0 i Hn N) as [S1 S2]. pose proof (node_range n Hn 0 i N) as (R1 & R2 & R3 & R4 & R5).
    set (a := lo_ n 0 i) in *. set (b := hi_ n 0 i) in *. set (u := i * 2 ^ Z.of_nat 0 * C) in *. set (v := (i + 1) * 2 ^ Z.of_nat 0 * C) in *.
    assert (Hwd : forall x, nok 0 i x = (inr_ (dst + a) (dst + b) x || inr_ (src + a) (src + b) x || inr_ (pw + u) (pw + v) x || inr_ (lw + u) (lw + v) x)) by reflexivity.
    assert (Hsort : forall m1, seg m1 (dst + a) (dst + b) = seg m0 (src + a) (src + b) ->
        (src <> dst -> forall x, src + a <= x < src + b -> m1 x = m0 x) ->
        wp (nok 0 i) (leafsort (dst + a) (b - a) (lw + u)) (fun _ => npost 0 i) m1).
    { intros m1 E1 E2. apply leafsort_ok; try lia.
      - destruct HL as [L1 L2 L3 L4 L5 L6]. unfold disjoint in *. lia.
      - intros x Hx. rewrite Hwd. unfold inr_. lia.
      - intros x Hx. rewrite Hwd. unfold inr_. lia.
      - intros x Hx. assert (HI : In (m1 x) (seg m0 (src + a) (src + b))).
        { rewrite <- E1. apply seg_In. exists x. split; [lia|reflexivity]. }
        apply seg_In in HI. destruct HI as (y & Hy & <-). apply HP0. lia.
      - replace (dst + a + (b - a)) with (dst + b) by lia. intros m' H1 H2 H3. unfold npost. fold a b. rewrite <- E1. split; [exact H1|].
        split; [exact H2|]. intros Hne x Hx. rewrite H3; [now apply E2| |].
        + destruct HL as [L1 L2 L3 L4 L5 L6]. unfold disjoint in *. lia.
        + destruct HL as [L1 L2 L3 L4 L5 L6]. unfold disjoint in *. lia. }
    destruct (Z.eqb_spec src dst) as [E|E].
    - apply wp_bind, wp_ret. apply Hsort; [now rewrite E|congruence].
    - apply memcpy_ok.
      + lia.
      + intros k Hk. rewrite !Hwd. unfold inr_. lia.
      + destruct HL as [L1 L2 L3 L4 L5 L6]. unfold disjoint in *. lia.
      + intros m1 H1 H2. apply Hsort.
        * replace (dst + b) with (dst + a + ((src + b) - (src + a))) by lia. apply seg_shift. intros x Hx.
          replace (x - (src + a)) with (x - src - a) by lia. rewrite H1 by lia. f_equal. lia.
        * intros _ x Hx. apply H2. destruct HL as [L1 L2 L3 L4 L5 L6]. unfold disjoint in *. lia.
  Qed.

  Notation reached sched := (prun gleaf (merge_node F LT dst pw n) 3 (pstart NumCores W zz m0) sched).

  Lemma under_root l i : gnode 1 3 l i -> 0 <= lo_ n l i /\ hi_ n l i <= n. Proof. intros N. pose proof (node_range n Hn l i N). lia. Qed.

  Theorem par_result sched c : cpcs (pc (reached sched)) c = CReturned ->
    rel (seg m0 src (src + n)) (seg (pm (reached sched)) dst (dst + n)) /\
    sorted_seg lt (pm (reached sched)) dst (dst + n) /\
    (forall x, ~ (dst <= x < dst + n) -> ~ (pw <= x < pw + 8 * C) -> ~ (lw <= x < lw + 8 * C) -> pm (reached sched) x = m0 x) /\
    NoDup (plog (reached sched)) /\
    (forall l i, In (l, i) (plog (reached sched)) <-> gnode 1 3 l i /\ (0 < l)%nat).
  Proof.
    intros Hret.
    pose proof (tree_result gleaf (merge_node F LT dst pw n) 1 3 W zz m0 nok npost HW ltac:(lia) leaf_post merge_post npost_frame (nok_disjoint src dst lw pw n Hn HL) sched c Hret)
      as (H1 & H2 & H3 & H4).
    specialize (H1 0 ltac:(lia)).
    assert (E : lo_ n 3 0 = 0 /\ hi_ n 3 0 = n) by (split; reflexivity). destruct E as [E1 E2].
    destruct H1 as (A1 & A2 & A3). rewrite E1, E2 in *. rewrite !Z.add_0_r in *.
    split; [exact A1|]. split; [exact A2|]. split; [|split; [exact H3|exact H4]].
    intros x X1 X2 X3. destruct (Z.eq_dec src dst) as [Es|Es].
    - apply H2. intros l i N. pose proof (node_range n Hn l i N) as (R1 & R2 & R3 & R4 & R5). unfold nodeok, inr_.
      set (a := lo_ n l i) in *. set (b := hi_ n l i) in *. set (u := i * 2 ^ Z.of_nat l * C) in *. set (v := (i + 1) * 2 ^ Z.of_nat l * C) in *. lia.
    - destruct (Z_le_dec src x) as [G1|G1]; [destruct (Z_lt_dec x (src + n)) as [G2|G2]; [apply A3; [exact Es|lia]|]|];
      (apply H2; intros l i N; pose proof (node_range n Hn l i N) as (R1 & R2 & R3 & R4 & R5); unfold nodeok, inr_;
        set (a := lo_ n l i) in *; set (b := hi_ n l i) in *; set (u := i * 2 ^ Z.of_nat l * C) in *; set (v := (i + 1) * 2 ^ Z.of_nat l * C) in *; lia).
  Qed.

  Theorem par_safe sched c c' : let s := reached sched in
    in_callback s c -> pp s c <> TBad /\
    (c' <> c -> in_callback s c' -> forall x, next_addr (pp s c) = Some x -> next_addr (pp s c') <> Some x).
  Proof. exact (tree_safe gleaf (merge_node F LT dst pw n) 1 3 W zz m0 nok npost HW ltac:(lia) leaf_post merge_post npost_frame (nok_disjoint src dst lw pw n Hn HL) sched c c'). Qed.

  Theorem par_can_return : 1 <= W -> forall sched, exists sched', cpcs (pc (reached (sched ++ sched'))) 0 = CReturned.
  Proof. exact (tree_can_return gleaf (merge_node F LT dst pw n) 1 3 W zz m0 nok npost HW ltac:(lia) leaf_post merge_post npost_frame (nok_disjoint src dst lw pw n Hn HL)). Qed.

  Theorem par_merge_after_halves sched e l i : let s := reached sched in
    plog (reached (sched ++ [e])) = plog s ++ [(S l, i)] -> npost l (2 * i) (pm s) /\ npost l (2 * i + 1) (pm s).
  Proof. exact (tree_merge_after_halves gleaf (merge_node F LT dst pw n) 1 3 W zz m0 nok npost HW ltac:(lia) leaf_post merge_post npost_frame (nok_disjoint src dst lw pw n Hn HL) sched e l i). Qed.
End Par.
