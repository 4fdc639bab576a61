(** Group_Props.v - C40. *)
From Coq Require Import SpecFloat.
From Verif Require Import Base Sort_Model SortCmp_Model Sort_Base_Proofs SortCmp_Proofs Sort_Props Group_Model.

(** * Specification *)
(** [group r] is the group of row r, [first j] and [count j] belong to the j-th group (j = 0 .. G-1), groups are numbered from [base];
    the rows are visited in the order [idx 0 .. idx (n-1)]. *)
Record grouping {K} (key : Z -> K) (idx : Z -> Z) (n base G : Z) (group first count : Z -> Z) : Prop := {
  (* same group exactly when the keys are equal *)
  gr_same : forall p q, 0 <= p < n -> 0 <= q < n -> (group (idx p) = group (idx q) <-> key (idx p) = key (idx q));
  (* numbered base .. base+G-1 in the order of the sorted rows *)
  gr_range : forall p, 0 <= p < n -> base <= group (idx p) < base + G;
  gr_order : forall p q, 0 <= p <= q -> q < n -> group (idx p) <= group (idx q);
  (* first row and size of every group *)
  gr_first : forall j, 0 <= j < G -> exists p, 0 <= p < n /\ first j = idx p /\ group (idx p) = base + j /\
     forall q, 0 <= q < p -> group (idx q) <> base + j;
  gr_count : forall j, 0 <= j < G -> count j = Z.of_nat (length (filter (fun p => group (idx p) =? base + j) (zrange 0 n)))
}.

Section Run.
  Context {K : Type}.
  Variables (same : K -> K -> bool) (key : Z -> K) (rows : Z) (idx : Z -> Z) (n : Z) (bump : bool) (add : Z).
  Hypothesis Hsame : forall r r', 0 <= r < rows -> 0 <= r' < rows -> (same (key r) (key r') = true <-> key r = key r').
  Hypothesis Hidx : forall p, 0 <= p < n -> 0 <= idx p < rows.
  Hypothesis Hinj : forall p q, 0 <= p < n -> 0 <= q < n -> idx p = idx q -> p = q.
  Hypothesis Hn : 1 <= n.
  (* equal keys are next to each other *)
  Hypothesis Hruns : forall p q r, 0 <= p <= q -> q <= r -> r < n -> key (idx p) = key (idx r) -> key (idx p) = key (idx q).
  Notation k p := (key (idx p)).

  (** number of changes up to position p *)
  Fixpoint rk (p : nat) : Z := match p with O => 0 | S p' => rk p' + (if same (k (Z.of_nat p')) (k (Z.of_nat (S p'))) then 0 else 1) end.
  Definition rank (p : Z) : Z := rk (Z.to_nat p).
  Lemma rank0 : rank 0 = 0. Proof. reflexivity. Qed.
  Lemma rank_step p : 0 < p -> rank p = rank (p - 1) + (if same (k (p - 1)) (k p) then 0 else 1).
  Proof.
    intros Hp. unfold rank. replace (Z.to_nat p) with (S (Z.to_nat (p - 1))) by lia. cbn [rk].
    replace (Z.of_nat (Z.to_nat (p - 1))) with (p - 1) by lia. replace (Z.of_nat (S (Z.to_nat (p - 1)))) with p by lia. reflexivity.
  Qed.
  Lemma rank_mono p q : 0 <= p <= q -> rank p <= rank q.
  Proof.
    intros H. replace q with (p + (q - p)) by lia. assert (H0 : 0 <= q - p) by lia. set (d := q - p) in *. clearbody d.
    pattern d. apply natlike_ind; [rewrite Z.add_0_r; lia| |exact H0]. intros x Hx IH. rewrite (rank_step (p + Z.succ x)) by lia.
    replace (p + Z.succ x - 1) with (p + x) by lia. destruct (same _ _); lia.
  Qed.
  Lemma rank_le p : 0 <= p -> rank p <= p.
  Proof.
    intros H. pattern p. apply natlike_ind; [rewrite rank0; lia| |exact H]. intros x Hx IH. rewrite rank_step by lia.
    replace (Z.succ x - 1) with x by lia. destruct (same _ _); lia.
  Qed.
  Lemma rank_eq_key p q : 0 <= p <= q -> q < n -> (rank p = rank q <-> k p = k q).
  Proof.
    intros Hp Hq.
    assert (G : forall d, 0 <= d -> p + d < n -> (rank p = rank (p + d) <-> k p = k (p + d))).
    { intros d H0. pattern d. apply natlike_ind; [rewrite Z.add_0_r; tauto| |exact H0]. intros x Hx IH Hb.
      specialize (IH ltac:(lia)). rewrite (rank_step (p + Z.succ x)) by lia. replace (p + Z.succ x - 1) with (p + x) by lia.
      pose proof (rank_mono p (p + x) ltac:(lia)) as M.
      pose proof (Hsame (idx (p + x)) (idx (p + Z.succ x)) ltac:(apply Hidx; lia) ltac:(apply Hidx; lia)) as S.
      destruct (same (k (p + x)) (k (p + Z.succ x))) eqn:E.
      - rewrite Z.add_0_r, IH. destruct S as [S _]. rewrite (S eq_refl). tauto.
      - split; [lia|]. intros G. exfalso. pose proof (Hruns p (p + x) (p + Z.succ x) ltac:(lia) ltac:(lia) Hb G) as G2.
        assert (X : false = true) by (apply S; congruence). discriminate. }
    specialize (G (q - p) ltac:(lia) ltac:(lia)). replace (p + (q - p)) with q in G by lia. exact G.
  Qed.

  Definition cntof (i j : Z) : Z := Z.of_nat (length (filter (fun p => rank p =? j) (zrange 0 i))).
  Lemma cntof_step i j : 0 <= i -> cntof (i + 1) j = cntof i j + (if rank i =? j then 1 else 0).
  Proof.
    intros Hi. unfold cntof. rewrite zrange_snoc by lia. rewrite filter_app, app_length. cbn [filter]. destruct (rank i =? j); cbn [length]; lia.
  Qed.
  Lemma cntof_zero i j : 0 <= i -> (forall p, 0 <= p < i -> rank p <> j) -> cntof i j = 0.
  Proof.
    intros Hi. unfold cntof. assert (G : forall l, (forall p, In p l -> rank p <> j) -> filter (fun p => rank p =? j) l = []).
    { induction l as [|x l IH]; intros H; [reflexivity|]. cbn [filter]. replace (rank x =? j) with false; [apply IH; intros; apply H; now right|].
      symmetry. apply Z.eqb_neq. apply H. now left. }
    intros H. rewrite G; [reflexivity|]. intros p Hp. apply zrange_In in Hp. now apply H.
  Qed.

  Notation sh := (if bump then 1 else 0).
  Record ginv (i : Z) (s : gstate K) : Prop := {
    I_val : gval s = k (i - 1);
    I_cur : gcur s = rank (i - 1);
    I_group : forall p, 0 <= p < i -> ggroup s (idx p) = rank p + add;
    I_first : forall j, 0 <= j <= rank (i - 1) -> exists p, 0 <= p < i /\ gfirst s j = idx p /\ rank p = j /\ forall q, 0 <= q < p -> rank q <> j;
    I_count : forall j, 0 <= j < rank (i - 1) -> gcount s (j + sh) = cntof i j;
    I_cnt : gcnt s = cntof i (rank (i - 1));
    I_zero : bump = true -> gcount s 0 = 0 }.

  Lemma put_ok size a i v : 0 <= i < size -> put size a i v = Some (zupd a i v).
  Proof. intros H. unfold put, inr_. now replace ((0 <=? i) && (i <? size)) with true by lia. Qed.
  Lemma index_ok i : 0 <= i < n -> index_at idx n i = Some (idx i).
  Proof. intros H. unfold index_at, inr_. now replace ((0 <=? i) && (i <? n)) with true by lia. Qed.
  Lemma key_ok r : 0 <= r < rows -> key_at key rows r = Some (key r).
  Proof. intros H. unfold key_at, inr_. now replace ((0 <=? r) && (r <? rows)) with true by lia. Qed.

  Lemma body_inv i s : 1 <= i < n -> ginv i s -> exists s', group_body same key rows idx n bump add s i = Some s' /\ ginv (i + 1) s'.
  Proof.
    intros Hi [Iv Ic Ig If Io In Iz]. unfold group_body. rewrite index_ok by lia. cbn [obind].
    pose proof (Hidx i ltac:(lia)) as Hr. rewrite key_ok by exact Hr. cbn [obind].
    pose proof (rank_step i ltac:(lia)) as Rs. rewrite <- Iv in Rs.
    pose proof (rank_mono 0 (i - 1) ltac:(lia)) as R0. rewrite rank0 in R0. pose proof (rank_le (i - 1) ltac:(lia)) as R1.
    destruct (same (gval s) (k i)) eqn:E.
    - rewrite put_ok by exact Hr. cbn [obind]. eexists. split; [reflexivity|].
      rewrite Z.add_0_r in Rs. constructor; cbn [gval gcnt gcur ggroup gfirst gcount]; replace (i + 1 - 1) with i by lia.
      + rewrite Iv in *. apply Hsame; try assumption. apply Hidx. lia.
      + congruence.
      + intros p Hp. destruct (Z.eq_dec p i) as [->|Hne]; [rewrite zupd_eq; lia|]. rewrite zupd_neq; [apply Ig; lia|].
        intros G. apply Hinj in G; lia.
      + intros j Hj. destruct (If j ltac:(lia)) as (p & P1 & P2 & P3 & P4). exists p. split; [lia|auto].
      + intros j Hj. rewrite Io by lia. rewrite cntof_step by lia. replace (rank i =? j) with false by lia. lia.
      + rewrite cntof_step by lia. rewrite Z.eqb_refl. rewrite In, <- Rs. lia.
      + exact Iz.
    - assert (B1 : 0 <= (if bump then gcur s + 1 else gcur s) < n + 1) by (destruct bump; lia).
      rewrite put_ok by exact B1. cbn [obind]. rewrite put_ok by lia. cbn [obind]. rewrite put_ok by exact Hr. cbn [obind].
      eexists. split; [reflexivity|]. constructor; cbn [gval gcnt gcur ggroup gfirst gcount]; replace (i + 1 - 1) with i by lia.
      + reflexivity.
      + lia.
      + intros p Hp. destruct (Z.eq_dec p i) as [->|Hne]; [rewrite zupd_eq; lia|]. rewrite zupd_neq; [apply Ig; lia|].
        intros G. apply Hinj in G; lia.
      + intros j Hj. destruct (Z.eq_dec j (rank i)) as [->|Hne].
        * exists i. split; [lia|]. split; [replace (gcur s + 1) with (rank i) by lia; apply zupd_eq|]. split; [reflexivity|].
          intros q Hq. pose proof (rank_mono q (i - 1) ltac:(lia)). lia.
        * destruct (If j ltac:(lia)) as (p & P1 & P2 & P3 & P4). exists p. split; [lia|]. rewrite zupd_neq by lia. auto.
      + intros j Hj. rewrite cntof_step by lia. replace (rank i =? j) with false by lia. rewrite Z.add_0_r.
        destruct (Z.eq_dec j (rank (i - 1))) as [->|Hne].
        * rewrite <- In. replace (rank (i - 1) + sh) with (if bump then gcur s + 1 else gcur s) by (destruct bump; lia). apply zupd_eq.
        * rewrite zupd_neq by (destruct bump; lia). apply Io. lia.
      + rewrite cntof_step by lia. rewrite Z.eqb_refl. rewrite cntof_zero; [reflexivity|lia|].
        intros q Hq. pose proof (rank_mono q (i - 1) ltac:(lia)). lia.
      + intros Hb. rewrite zupd_neq; [now apply Iz|]. rewrite Hb. lia.
  Qed.

  Lemma loop_inv s : ginv 1 s ->
    exists s', fold_left (fun s i => obind s (fun s => group_body same key rows idx n bump add s i)) (zrange 1 n) (Some s) = Some s' /\ ginv n s'.
  Proof.
    intros H1.
    assert (G : forall d, 0 <= d -> 1 + d <= n -> exists s', fold_left (fun s i => obind s (fun s => group_body same key rows idx n bump add s i)) (zrange 1 (1 + d)) (Some s) = Some s' /\ ginv (1 + d) s').
    { intros d Hd. pattern d. apply natlike_ind; [| |exact Hd].
      - intros _. exists s. split; [reflexivity|exact H1].
      - intros x Hx IH Hb. destruct IH as (s1 & E1 & I1); [lia|]. destruct (body_inv (1 + x) s1 ltac:(lia) I1) as (s2 & E2 & I2).
        exists s2. replace (1 + Z.succ x) with (1 + x + 1) by lia. split; [|exact I2].
        rewrite zrange_snoc by lia. rewrite fold_left_app, E1. exact E2. }
    destruct (G (n - 1) ltac:(lia) ltac:(lia)) as (s' & E & I). replace (1 + (n - 1)) with n in * by lia. eauto.
  Qed.

  Theorem run_groups g0 f0 c0 : exists G s, group_run same key rows idx n bump add g0 f0 c0 = Some (G, s) /\ 1 <= G <= n /\
    grouping key idx n add G (ggroup s) (gfirst s) (fun j => gcount s (j + sh)) /\ (bump = true -> gcount s 0 = 0).
  Proof.
    unfold group_run. rewrite index_ok by lia. cbn [obind]. pose proof (Hidx 0 ltac:(lia)) as Hr. rewrite key_ok by exact Hr. cbn [obind].
    assert (Ec : exists c, (if bump then put (n + 1) c0 0 0 else Some c0) = Some c /\ (bump = true -> c 0 = 0)).
    { destruct bump; [rewrite put_ok by lia; eexists; split; [reflexivity|intros _; apply zupd_eq]|eexists; split; [reflexivity|discriminate]]. }
    destruct Ec as (c & -> & Hc). cbn [obind]. rewrite put_ok by lia. cbn [obind]. rewrite put_ok by exact Hr. cbn [obind].
    destruct (loop_inv (mkG (k 0) 1 0 (zupd g0 (idx 0) add) (zupd f0 0 (idx 0)) c)) as (s & -> & [Iv Ic Ig If Io In Iz]).
    { constructor; cbn [gval gcnt gcur ggroup gfirst gcount]; change (1 - 1) with 0; rewrite ?rank0.
      - reflexivity.
      - reflexivity.
      - intros p Hp. replace p with 0 by lia. rewrite rank0. apply zupd_eq.
      - intros j Hj. replace j with 0 by lia. exists 0. split; [lia|]. split; [apply zupd_eq|]. split; [reflexivity|intros; lia].
      - intros; lia.
      - reflexivity.
      - exact Hc. }
    cbn [obind]. pose proof (rank_mono 0 (n - 1) ltac:(lia)) as R0. rewrite rank0 in R0. pose proof (rank_le (n - 1) ltac:(lia)) as R1.
    rewrite put_ok by (destruct bump; lia). cbn [obind]. eexists _, _. split; [reflexivity|]. split; [lia|].
    cbn [ggroup gfirst gcount]. split; [|intros Hb; rewrite zupd_neq; [now apply Iz|rewrite Hb; lia]].
    constructor.
    - intros p q Hp Hq. rewrite !Ig by assumption. assert (A : rank p + add = rank q + add <-> rank p = rank q) by lia. rewrite A.
      destruct (Z.le_ge_cases p q); [apply rank_eq_key; lia|]. split; intros G; symmetry; apply (rank_eq_key q p); try lia; auto.
    - intros p Hp. rewrite Ig by assumption. pose proof (rank_mono 0 p ltac:(lia)) as A. rewrite rank0 in A. pose proof (rank_mono p (n - 1) ltac:(lia)). lia.
    - intros p q Hp Hq. rewrite !Ig by lia. pose proof (rank_mono p q ltac:(lia)). lia.
    - intros j Hj. destruct (If j ltac:(lia)) as (p & P1 & P2 & P3 & P4). exists p. split; [exact P1|]. split; [exact P2|]. rewrite Ig by exact P1. split; [lia|].
      intros q Hq. rewrite Ig by lia. specialize (P4 q Hq). lia.
    - intros j Hj. assert (E : cntof n j = Z.of_nat (length (filter (fun p => ggroup s (idx p) =? add + j) (zrange 0 n)))).
      { unfold cntof. do 2 f_equal. apply filter_ext_in. intros p Hp. apply zrange_In in Hp. rewrite Ig by exact Hp. lia. }
      rewrite <- E. destruct (Z.eq_dec j (rank (n - 1))) as [->|Hne].
      + rewrite <- In. replace (rank (n - 1) + sh) with (if bump then gcur s + 1 else gcur s) by (destruct bump; lia). apply zupd_eq.
      + rewrite zupd_neq by (destruct bump; lia). apply Io. lia.
  Qed.
End Run.

(** * C40 *)
(** every input the callers have: [idx] lists distinct rows of the table, sorted so that equal keys are next to each other *)
Record sorted_rows {K} (key : Z -> K) (rows : Z) (idx : Z -> Z) (n : Z) : Prop := {
  sr_in : forall p, 0 <= p < n -> 0 <= idx p < rows;
  sr_inj : forall p q, 0 <= p < n -> 0 <= q < n -> idx p = idx q -> p = q;
  sr_runs : forall p q r, 0 <= p <= q -> q <= r -> r < n -> key (idx p) = key (idx r) -> key (idx p) = key (idx q) }.

(** items of 1, 2, 4 or 8 bytes taken as integers. base_index 0: counts from place 0; otherwise place 0 holds 0 and counts start at place 1 *)
Theorem C40_group_int key rows idx n base_index g0 f0 c0 : 1 <= n -> sorted_rows key rows idx n ->
  let base := if base_index =? 0 then 0 else 1 in
  exists G s, GroupIndexStep2 key rows idx n base_index g0 f0 c0 = Some (G, s) /\ 1 <= G <= n /\
    grouping key idx n base G (ggroup s) (gfirst s) (fun j => gcount s (j + base)) /\ (base = 1 -> gcount s 0 = 0).
Proof.
  intros Hn [S1 S2 S3] base. unfold GroupIndexStep2, base. destruct (base_index =? 0).
  - destruct (run_groups Z.eqb key rows idx n false 0) with (g0 := g0) (f0 := f0) (c0 := c0) as (G & s & E & H1 & H2 & H3); auto.
    { intros. apply Z.eqb_eq. } exists G, s. split; [exact E|]. split; [exact H1|]. split; [exact H2|discriminate].
  - destruct (run_groups Z.eqb key rows idx n true 1) with (g0 := g0) (f0 := f0) (c0 := c0) as (G & s & E & H1 & H2 & H3); auto.
    { intros. apply Z.eqb_eq. } exists G, s. split; [exact E|]. split; [exact H1|]. split; [exact H2|intros _; now apply H3].
Qed.
(** other item lengths: same, but the counts always start at place 1, also for base_index 0 *)
Theorem C40_group_bytes len key rows idx n base_index g0 f0 c0 : 1 <= n -> sorted_rows key rows idx n ->
  (forall r, 0 <= r < rows -> bytes (key r) /\ length (key r) = len) ->
  exists G s, GroupIndexStep2String len key rows idx n base_index g0 f0 c0 = Some (G, s) /\ 1 <= G <= n /\
    grouping key idx n base_index G (ggroup s) (gfirst s) (fun j => gcount s (j + 1)) /\ gcount s 0 = 0.
Proof.
  intros Hn [S1 S2 S3] HL. unfold GroupIndexStep2String.
  destruct (run_groups (fun a b => negb (BINARY_LT len a b)) key rows idx n true base_index) with (g0 := g0) (f0 := f0) (c0 := c0) as (G & s & E & H1 & H2 & H3); auto.
  { intros r r' Hr Hr'. destruct (HL r Hr), (HL r' Hr'). pose proof (C36_binary_lt_differs len (key r) (key r')) as D.
    destruct (BINARY_LT len (key r) (key r')); cbn [negb].
    - split; [discriminate|]. intros X. exfalso. revert X. apply D; auto.
    - split; [|reflexivity]. intros _. destruct (list_eq_dec Z.eq_dec (key r) (key r')) as [X|X]; [exact X|]. apply D in X; auto. discriminate. }
  exists G, s. split; [exact E|]. split; [exact H1|]. split; [exact H2|now apply H3].
Qed.

(** with ascending integer keys, groups ascend with the keys *)
Corollary C40_group_order key rows idx n base_index g0 f0 c0 : 1 <= n ->
  (forall p, 0 <= p < n -> 0 <= idx p < rows) -> (forall p q, 0 <= p < n -> 0 <= q < n -> idx p = idx q -> p = q) ->
  (forall p q, 0 <= p <= q -> q < n -> key (idx p) <= key (idx q)) ->
  exists G s, GroupIndexStep2 key rows idx n base_index g0 f0 c0 = Some (G, s) /\
    forall p q, 0 <= p < n -> 0 <= q < n -> (ggroup s (idx p) < ggroup s (idx q) <-> key (idx p) < key (idx q)).
Proof.
  intros Hn H1 H2 H3.
  destruct (C40_group_int key rows idx n base_index g0 f0 c0 Hn) as (G & s & E & _ & H & _).
  { constructor; auto. intros p q r Hp Hq Hr X. pose proof (H3 p q ltac:(lia) ltac:(lia)). pose proof (H3 q r ltac:(lia) ltac:(lia)). lia. }
  exists G, s. split; [exact E|]. intros p q Hp Hq. destruct (Z.le_ge_cases p q).
  - pose proof (gr_order _ _ _ _ _ _ _ _ H p q ltac:(lia) ltac:(lia)). pose proof (gr_same _ _ _ _ _ _ _ _ H p q Hp Hq). pose proof (H3 p q ltac:(lia) ltac:(lia)). lia.
  - pose proof (gr_order _ _ _ _ _ _ _ _ H q p ltac:(lia) ltac:(lia)). pose proof (gr_same _ _ _ _ _ _ _ _ H p q Hp Hq). pose proof (H3 q p ltac:(lia) ltac:(lia)). lia.
Qed.

(** REFUTED parts. base_index 0 with 3-byte items: the size of group 0 is not at place 0 *)
Theorem C40_group_bytes_base0_refuted :
  let key := fun r : Z => if r =? 0 then [97; 97; 97] else [98; 98; 98] in
  exists G s, GroupIndexStep2String 3 key 3 (fun p => p) 3 0 (fun _ => 0) (fun _ => 0) (fun _ => 0) = Some (G, s) /\
    G = 2 /\ gcount s 0 = 0 /\ length (filter (fun p => ggroup s p =? 0) (zrange 0 3)) = 1%nat.
Proof. eexists _, _. repeat split; vm_compute; reflexivity. Qed.
(** floats are grouped by bit pattern: 0.0, -0.0, 0.0 (equal, so any order of them is sorted) give three groups *)
Theorem C40_group_float_refuted :
  let key := fun r : Z => if r =? 1 then 2 ^ 63 else 0 in
  (forall p q, 0 <= p < 3 -> 0 <= q < 3 -> SFeqb (decode64 (key p)) (decode64 (key q)) = true) /\
  exists s, GroupIndexStep2 key 3 (fun p => p) 3 0 (fun _ => 0) (fun _ => 0) (fun _ => 0) = Some (3, s).
Proof.
  split.
  - intros p q Hp Hq. assert (P : p = 0 \/ p = 1 \/ p = 2) by lia. assert (Q : q = 0 \/ q = 1 \/ q = 2) by lia.
    destruct P as [->|[->| ->]], Q as [->|[->| ->]]; reflexivity.
  - eexists. vm_compute. reflexivity.
Qed.
(** an empty index array is read at place 0 *)
Theorem C40_group_empty_refuted key rows idx base_index g0 f0 c0 : GroupIndexStep2 key rows idx 0 base_index g0 f0 c0 = None.
Proof. unfold GroupIndexStep2. destruct (base_index =? 0); reflexivity. Qed.

Example group_case :
  let key := fun r => r / 2 in let idx := fun p => 4 - p in
  sorted_rows key 5 idx 5 /\
  exists s, GroupIndexStep2 key 5 idx 5 1 (fun _ => 0) (fun _ => 0) (fun _ => 0) = Some (3, s) /\
    map (ggroup s) [0; 1; 2; 3; 4] = [3; 3; 2; 2; 1] /\ map (gfirst s) [0; 1; 2] = [4; 3; 1] /\ map (gcount s) [0; 1; 2; 3] = [0; 1; 2; 2].
Proof.
  split; [constructor; intros; Z.div_mod_to_equations; lia|]. eexists. split; [vm_compute; reflexivity|]. repeat split; vm_compute; reflexivity.
Qed.

Print Assumptions C40_group_int.
Print Assumptions C40_group_bytes.
Print Assumptions C40_group_order.
Print Assumptions C40_group_bytes_base0_refuted.
Print Assumptions C40_group_float_refuted.
