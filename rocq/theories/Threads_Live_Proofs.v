(** Threads_Live_Proofs.v - termination of a threaded call (channel machine). *)
From Verif Require Import Base Threads_Model Threads_Proofs.

Fixpoint zsum (l : list Z) : Z := match l with [] => 0 | x :: r => x + zsum r end.

Lemma zsum_map_le (f g : Z -> Z) l : (forall x, In x l -> f x <= g x) -> zsum (map f l) <= zsum (map g l).
Proof.
  induction l as [|a l IH]; intros H; simpl; [lia|].
  assert (f a <= g a) by (apply H; left; reflexivity).
  assert (zsum (map f l) <= zsum (map g l)) by (apply IH; intros; apply H; right; assumption). lia.
Qed.

Lemma zsum_map_lt (f g : Z -> Z) l i d : (forall x, In x l -> f x <= g x) -> In i l -> f i + d <= g i ->
  zsum (map f l) + d <= zsum (map g l).
Proof.
  induction l as [|a l IH]; intros H Hi Hd; [destruct Hi|]. simpl.
  assert (H' : forall x, In x l -> f x <= g x) by (intros; apply H; right; assumption).
  destruct Hi as [->|Hi].
  - pose proof (zsum_map_le f g l H'). lia.
  - assert (f a <= g a) by (apply H; left; reflexivity). specialize (IH H' Hi Hd). lia.
Qed.

Lemma zsum_nonneg l : (forall x, In x l -> 0 <= x) -> 0 <= zsum l.
Proof.
  induction l as [|a l IH]; intros H; simpl; [lia|].
  assert (0 <= a) by (apply H; left; reflexivity).
  assert (0 <= zsum l) by (apply IH; intros; apply H; right; assumption). lia.
Qed.

Section Live.
  Context {V : Type} (u : ufunc V).
  Variables (n T : Z) (zz : bool).
  Hypothesis Hn : 0 <= n.
  Hypothesis HT : 0 <= T.
  Notation BL := (BL n). Notation th := (th T). Notation clast := (clast n T).
  Notation blen := (blen n). Notation Inv := (Inv n T zz).

  Definition left_in (s : state V) (i : Z) : Z := Z.max 0 (clast i - cur s i).
  Definition rem (s : state V) : Z := zsum (map (left_in s) (zrange 0 (T + 1))).
  Definition K : Z := CH + 2 * T + 20.
  Definition rank (p : pc) : Z :=
    match p with
    | Draw i false => 2 * T + 8
    | Draw i true => 2 * Z.max 0 (T + 1 - i) + 1
    | Check => 2 * T + 5
    | Steal i => 2 * Z.max 0 (T + 1 - i) + 2
    | Bump _ _ => 2 * T + CH + 12
    | Work _ len k => 2 * T + 10 + Z.max 0 (len - k)
    | Finish _ => 2 * T + 9
    | _ => 0
    end.
  Definition measure (s : state V) : Z := rem s * K + rank (pcs s 0).

  Lemma rem_nonneg s : 0 <= rem s.
  Proof.
    apply zsum_nonneg. intros x Hx. apply in_map_iff in Hx. destruct Hx as (i & <- & _). unfold left_in. lia.
  Qed.

  Lemma rank_nonneg p : 0 <= rank p.
  Proof. destruct p as [|i [] | | | | | | |]; simpl; rewrite ?CH_val; lia. Qed.

  Lemma step_cur c s i : cur s i <= cur (step u c s) i.
  Proof.
    unfold step. destruct (pcs s c) as [|j st|lb len|lb len k|lb| |j| |].
    all: try (match goal with |- context [if ?b then _ else _] => destruct b end).
    all: try (match goal with |- context [if ?b then _ else _] => destruct b end).
    all: try (unfold cur; simpl; lia).
    all: unfold cur; simpl; unfold zupd; destruct (Z.eqb_spec i j) as [->|_]; simpl; lia.
  Qed.

  Lemma rem_step c s : rem (step u c s) <= rem s.
  Proof.
    apply zsum_map_le. intros i _. unfold left_in. pose proof (step_cur c s i). lia.
  Qed.

  Lemma step_other_pc c c' s : c' <> c -> pcs (step u c s) c' = pcs s c'.
  Proof.
    intros Hne. unfold step. destruct (pcs s c) as [|j st|lb len|lb len k|lb| |j| |].
    all: try (match goal with |- context [if ?b then _ else _] => destruct b end).
    all: try (match goal with |- context [if ?b then _ else _] => destruct b end).
    all: try reflexivity.
    all: simpl; apply zupd_neq; exact Hne.
  Qed.

  Definition at_end (p : pc) : Prop := p = Wait \/ p = Returned.

  Lemma measure_other c s : c <> 0 -> measure (step u c s) <= measure s.
  Proof.
    intros Hc. unfold measure. rewrite step_other_pc by lia.
    pose proof (rem_step c s). assert (0 < K) by (unfold K; rewrite CH_val; lia). nia.
  Qed.

  Lemma rem_goto s c p : rem (goto s c p) = rem s. Proof. reflexivity. Qed.

  Lemma measure_main s done bumped : Inv s done bumped -> ~ at_end (pcs s 0) ->
    measure (step u 0 s) + 1 <= measure s.
  Proof.
    intros I Hne. pose proof (I_pc _ _ _ _ _ _ I 0) as Hpc.
    destruct (I_static _ _ _ _ _ _ I) as (S1 & S2 & S3 & S4 & S5 & S6).
    assert (HK : 0 < K) by (unfold K; rewrite CH_val; lia).
    unfold measure, step. destruct (pcs s 0) as [|j st|lb len|lb len k|lb| |j| |] eqn:Epc; simpl in Hpc.
    - lia.
    - (* Draw *)
      destruct Hpc as (_ & Hj & Hown & _).
      set (s' := with_item s (set_cur (it s) j (CurrentBlock (WorkerChannel (it s) j) + 1))).
      assert (Hcur : forall i, cur s' i = if i =? j then cur s j + 1 else cur s i).
      { intros i. unfold cur, s'; simpl. unfold zupd. destruct (i =? j); reflexivity. }
      assert (Hle : forall i, In i (zrange 0 (T + 1)) -> left_in s' i <= left_in s i).
      { intros i _. unfold left_in. rewrite Hcur. destruct (Z.eqb_spec i j) as [->|_]; lia. }
      rewrite S6. fold (cur s j). destruct (cur s j <? clast j) eqn:E.
      + rewrite pcs_goto, Z.eqb_refl, rem_goto. simpl rank.
        assert (Hd : rem s' + 1 <= rem s).
        { apply zsum_map_lt with j; [exact Hle|apply zrange_In; lia|].
          unfold left_in. rewrite Hcur, Z.eqb_refl. lia. }
        pose proof (rem_nonneg s'). unfold K in *. rewrite CH_val in *.
        pose proof (rank_nonneg (Draw j st)). destruct st; simpl; nia.
      + rewrite pcs_goto, Z.eqb_refl, rem_goto.
        assert (Hd : rem s' <= rem s) by (apply zsum_map_le; exact Hle).
        assert (rem s' * K <= rem s * K) by nia.
        destruct st; simpl; lia.
    - rewrite pcs_goto, Z.eqb_refl, rem_goto. change (rem (with_item s (set_next (it s) (BlockNext (it s) + 1)))) with (rem s).
      assert (Hheld : holds (pcs s 0) lb) by (rewrite Epc; reflexivity).
      pose proof (I_held _ _ _ _ _ _ I _ _ Hheld) as [Hdr _]. pose proof (blen_pos n lb Hdr).
      simpl. destruct Hpc as [_ ->]. lia.
    - destruct Hpc as (_ & Hl & Hk). destruct (k <? len) eqn:E.
      + rewrite pcs_goto, Z.eqb_refl, rem_goto. change (rem (do_element u s lb k)) with (rem s). simpl. lia.
      + rewrite pcs_goto, Z.eqb_refl, rem_goto. simpl. lia.
    - rewrite pcs_goto, Z.eqb_refl, rem_goto.
      change (rem (with_item s (set_completed (it s) (BlocksCompleted (it s) + 1)))) with (rem s). simpl. lia.
    - destruct (BlockLast (it s) <=? BlockNext (it s)); rewrite pcs_goto, Z.eqb_refl, rem_goto; simpl; lia.
    - rewrite S2. destruct Hpc as (_ & Hj & _). destruct (j <=? T) eqn:E.
      + destruct (j =? 0); rewrite pcs_goto, Z.eqb_refl, rem_goto; simpl; lia.
      + rewrite pcs_goto, Z.eqb_refl, rem_goto. simpl. lia.
    - exfalso. apply Hne. left. reflexivity.
    - exfalso. apply Hne. right. reflexivity.
  Qed.

  Lemma at_end_step c s : at_end (pcs s 0) -> at_end (pcs (step u c s) 0).
  Proof.
    intros H. destruct (Z.eq_dec c 0) as [->|Hc].
    - unfold step. destruct H as [H|H]; rewrite H.
      + destruct (BlocksCompleted (it s) <? BlockLast (it s)); [left; exact H|right].
        rewrite pcs_goto, Z.eqb_refl. reflexivity.
      + right. exact H.
    - rewrite step_other_pc by lia. exact H.
  Qed.

  Lemma at_end_run sched s : at_end (pcs s 0) -> at_end (pcs (run u s sched) 0).
  Proof.
    revert s. induction sched as [|c sched IH]; intros s H; simpl; [exact H|]. apply IH, at_end_step, H.
  Qed.

  Lemma at_end_dec p : at_end p \/ ~ at_end p.
  Proof. unfold at_end. destruct p; (left; left; reflexivity) || (left; right; reflexivity) || (right; intros [H|H]; discriminate). Qed.

  Lemma main_bounded sched s done bumped : Inv s done bumped -> measure s <= occ 0 sched ->
    at_end (pcs (run u s sched) 0).
  Proof.
    revert s done bumped. induction sched as [|c sched IH]; intros s done bumped I Hm.
    - rewrite occ_nil in Hm. destruct (at_end_dec (pcs s 0)) as [H|H]; [exact H|exfalso].
      pose proof (measure_main s done bumped I H). unfold measure in *.
      pose proof (rem_nonneg (step u 0 s)). pose proof (rank_nonneg (pcs (step u 0 s) 0)).
      assert (0 < K) by (unfold K; rewrite CH_val; lia).
      assert (0 <= rem (step u 0 s) * K) by nia. lia.
    - simpl. destruct (at_end_dec (pcs s 0)) as [H|H].
      + apply (at_end_run sched), at_end_step, H.
      + destruct (step_inv u n T zz HT c s done bumped I) as (d' & b' & I').
        apply (IH (step u c s) d' b' I'). rewrite occ_cons in Hm. destruct (Z.eqb_spec c 0) as [->|Hc].
        * pose proof (measure_main s done bumped I H). lia.
        * pose proof (measure_other c s Hc). lia.
  Qed.

  Lemma sum_clast_aux R Q m : 0 <= m -> 0 <= R ->
    zsum (map (fun i => Q + (if i <? R then 1 else 0)) (zrange 0 m)) = m * Q + Z.min m R.
  Proof.
    intros Hm HR. revert m Hm. apply (natlike_ind (fun m =>
      zsum (map (fun i => Q + (if i <? R then 1 else 0)) (zrange 0 m)) = m * Q + Z.min m R)).
    - rewrite zrange_nil by lia. simpl. lia.
    - intros x Hx IH. unfold Z.succ. rewrite zrange_snoc by lia. rewrite map_app.
      assert (Hs : forall l1 l2, zsum (l1 ++ l2) = zsum l1 + zsum l2).
      { induction l1 as [|a l1 IHl]; intros l2; simpl; [lia|rewrite IHl; lia]. }
      rewrite Hs, IH. simpl. destruct (x <? R) eqn:E; lia.
  Qed.

  Lemma rem_start m : rem (start n T zz m) = BL.
  Proof.
    pose proof (BL_nonneg n Hn) as HB.
    pose proof (Z.mod_pos_bound BL th ltac:(unfold th; lia)) as Hb.
    transitivity (zsum (map (fun i => BL / th + (if i <? BL mod th then 1 else 0)) (zrange 0 (T + 1)))).
    - unfold rem. f_equal. apply map_ext. intros i. unfold left_in, clast, cur; simpl.
      assert (0 <= BL / th) by (apply Z.div_pos; unfold th; lia). destruct (i <? BL mod th); lia.
    - rewrite sum_clast_aux by lia. fold th. rewrite Z.min_r by (unfold th in *; lia).
      pose proof (Z.div_mod BL th ltac:(unfold th; lia)). unfold th in *. lia.
  Qed.

  Lemma measure_start m : measure (start n T zz m) = BL * K + 2 * T + 8.
  Proof. unfold measure. rewrite rem_start. simpl. lia. Qed.

  (** ---- finishing ---- *)
  Definition exhausted (s : state V) : Prop := forall i, 0 <= i <= T -> clast i <= cur s i.

  Lemma all_drawn_exhausted s : (forall lb, 0 <= lb < BL -> Drawn n T zz s lb) ->
     (forall i, 0 <= cur s i) -> exhausted s.
  Proof.
    intros H Hcur i Hi. destruct (Z_le_gt_dec (clast i) 0) as [Hz|Hz]; [specialize (Hcur i); lia|].
    destruct (lblock_spec n T HT zz i (clast i - 1)) as (L1 & L2 & L3); [unfold th; lia|lia|].
    destruct (H _ L1) as [_ H2]. rewrite L2, L3 in H2. lia.
  Qed.

  Definition todo (p : pc) : Z :=
    match p with
    | Bump _ _ => CH + 3
    | Work _ len k => Z.max 0 (len - k) + 2
    | Finish _ => 1
    | _ => 0
    end.

  Lemma todo_nonneg p : 0 <= todo p.
  Proof. destruct p; simpl; rewrite ?CH_val; lia. Qed.

  Lemma todo_le (s : state V) done bumped c : Inv s done bumped -> todo (pcs s c) <= CH + 3.
  Proof.
    intros I. pose proof (I_pc _ _ _ _ _ _ I c) as Hpc.
    destruct (pcs s c) as [|j st|lb len|lb len k|lb| |j| |] eqn:Epc; simpl in *; rewrite ?CH_val in *; try lia.
    assert (Hheld : holds (pcs s c) lb) by (rewrite Epc; reflexivity).
    pose proof (I_held _ _ _ _ _ _ I _ _ Hheld) as [Hdr _]. pose proof (blen_pos n lb Hdr) as Hb.
    rewrite CH_val in Hb. lia.
  Qed.

  Lemma todo_step s done bumped c c' : Inv s done bumped -> exhausted s ->
    todo (pcs (step u c s) c') <= Z.max 0 (todo (pcs s c') - (if c =? c' then 1 else 0)).
  Proof.
    intros I Hex. destruct (Z.eqb_spec c c') as [<-|Hne].
    2:{ rewrite step_other_pc by lia. pose proof (todo_nonneg (pcs s c')). lia. }
    pose proof (I_pc _ _ _ _ _ _ I c) as Hpc.
    destruct (I_static _ _ _ _ _ _ I) as (S1 & S2 & S3 & S4 & S5 & S6).
    unfold step. destruct (pcs s c) as [|j st|lb len|lb len k|lb| |j| |] eqn:Epc; simpl in Hpc.
    - destruct ((1 <=? c) && (c <=? ThreadWakeup (it s))); [rewrite pcs_goto, Z.eqb_refl|rewrite Epc]; simpl; lia.
    - rewrite S6. fold (cur s j). pose proof (Hex j ltac:(lia)) as Hj.
      destruct (Z.ltb_spec (cur s j) (clast j)); [lia|]. rewrite pcs_goto, Z.eqb_refl. destruct st; simpl; lia.
    - rewrite pcs_goto, Z.eqb_refl. simpl.
      assert (Hheld : holds (pcs s c) lb) by (rewrite Epc; reflexivity).
      pose proof (I_held _ _ _ _ _ _ I _ _ Hheld) as [Hdr _]. pose proof (blen_pos n lb Hdr) as Hb. lia.
    - destruct (k <? len) eqn:E; rewrite pcs_goto, Z.eqb_refl; simpl; lia.
    - rewrite pcs_goto, Z.eqb_refl. simpl. lia.
    - destruct (BlockLast (it s) <=? BlockNext (it s)); rewrite pcs_goto, Z.eqb_refl; unfold stop;
        try destruct (c =? 0); simpl; lia.
    - destruct (j <=? ThreadWakeup (it s)); [destruct (j =? c)|]; rewrite pcs_goto, Z.eqb_refl; unfold stop;
        try destruct (c =? 0); simpl; lia.
    - destruct (BlocksCompleted (it s) <? BlockLast (it s)); [rewrite Epc|rewrite pcs_goto, Z.eqb_refl]; simpl; lia.
    - rewrite Epc. simpl. lia.
  Qed.

  Lemma exhausted_step c s : exhausted s -> exhausted (step u c s).
  Proof. intros H i Hi. pose proof (step_cur c s i). specialize (H i Hi). lia. Qed.

  Lemma todo_run sched s done bumped c' : Inv s done bumped -> exhausted s ->
    todo (pcs (run u s sched) c') <= Z.max 0 (todo (pcs s c') - occ c' sched).
  Proof.
    revert s done bumped. induction sched as [|c sched IH]; intros s done bumped I Hex.
    - simpl. rewrite occ_nil. lia.
    - simpl. destruct (step_inv u n T zz HT c s done bumped I) as (d' & b' & I').
      specialize (IH _ d' b' I' (exhausted_step c s Hex)).
      pose proof (todo_step s done bumped c c' I Hex) as Hs.
      rewrite occ_cons. pose proof (occ_nonneg c' sched). destruct (c =? c'); unfold run in *; lia.
  Qed.

  Lemma no_todo_no_hold p lb : todo p = 0 -> ~ holds p lb.
  Proof. destruct p; simpl; rewrite ?CH_val; lia || (intros _ []). Qed.

  Lemma finish_returns s done bumped : Inv s done bumped -> at_end (pcs s 0) ->
    (forall c, 1 <= c <= T -> todo (pcs s c) = 0) -> pcs (step u 0 s) 0 = Returned.
  Proof.
    intros I He Hno. unfold step. destruct He as [He|He]; rewrite He; [|exact He].
    pose proof (I_pc _ _ _ _ _ _ I 0) as Hpc. rewrite He in Hpc. simpl in Hpc. destruct Hpc as [_ Hall].
    destruct (I_static _ _ _ _ _ _ I) as (S1 & S2 & S3 & S4 & S5 & S6). rewrite S3.
    assert (Hd : forall lb, 0 <= lb < BL -> In lb done).
    { intros lb Hlb. destruct (I_cover _ _ _ _ _ _ I lb (Hall lb Hlb)) as [H|[c Hc]]; [exact H|exfalso].
      assert (Hrange : 0 <= c <= T).
      { pose proof (I_pc _ _ _ _ _ _ I c) as Hp. destruct (pcs s c); simpl in *; lia || tauto. }
      destruct (Z.eq_dec c 0) as [->|Hc0]; [rewrite He in Hc; exact Hc|].
      eapply no_todo_no_hold; [apply Hno|exact Hc]. lia. }
    assert (Hlen : BL <= Z.of_nat (length done)).
    { assert (H : (length (zrange 0 BL) <= length done)%nat).
      { apply NoDup_incl_length; [apply zrange_NoDup|]. intros x Hx. apply zrange_In in Hx. auto. }
      rewrite zrange_length in H. lia. }
    rewrite (I_done_len _ _ _ _ _ _ I) in Hlen.
    destruct (Z.ltb_spec (BlocksCompleted (it s)) BL); [lia|].
    rewrite pcs_goto, Z.eqb_refl. reflexivity.
  Qed.

  Lemma fair_returns m s1 s2 :
    BL * K + 2 * T + 8 <= occ 0 s1 -> (forall c, 1 <= c <= T -> CH + 3 <= occ c s2) ->
    pcs (run u (start n T zz m) (s1 ++ s2 ++ [0])) 0 = Returned.
  Proof.
    intros H1 H2. unfold run. rewrite !fold_left_app.
    fold (run u (start n T zz m) s1). set (sa := run u (start n T zz m) s1).
    destruct (reach_inv u n T zz HT m s1) as (d & b & I). fold sa in I.
    assert (Ha : at_end (pcs sa 0)).
    { apply (main_bounded s1 _ [] []); [apply inv_start; assumption|]. rewrite measure_start. exact H1. }
    assert (Hex : exhausted sa).
    { apply all_drawn_exhausted; [|apply (I_cur _ _ _ _ _ _ I)].
      pose proof (I_pc _ _ _ _ _ _ I 0) as Hpc. destruct Ha as [Ha|Ha]; rewrite Ha in Hpc; simpl in Hpc; tauto. }
    fold (run u sa s2). destruct (run_inv u n T zz HT s2 sa d b I) as (d2 & b2 & I2).
    simpl. eapply finish_returns; [exact I2|apply at_end_run, Ha|].
    intros c Hc. pose proof (todo_run s2 sa d b c I Hex) as Ht. specialize (H2 c Hc).
    pose proof (todo_le sa d b c I). pose proof (todo_nonneg (pcs (run u sa s2) c)). lia.
  Qed.

  (** no help from workers: the caller alone *)
  Lemma caller_alone m k : BL * K + 2 * T + 8 <= Z.of_nat k ->
    pcs (run u (start n T zz m) (repeat 0 (S k))) 0 = Returned.
  Proof.
    intros Hk. replace (S k) with (k + 1)%nat by lia. rewrite repeat_app. simpl.
    unfold run. rewrite fold_left_app. simpl. fold (run u (start n T zz m) (repeat 0 k)).
    set (sa := run u (start n T zz m) (repeat 0 k)).
    assert (Hocc : forall c, c <> 0 -> occ c (repeat 0 k) = 0).
    { intros c Hc. induction k as [|k IH]; [reflexivity|]. clear Hk. clear sa.
      assert (G : forall j, occ c (repeat 0 j) = 0).
      { induction j as [|j IHj]; [reflexivity|]. simpl repeat. rewrite occ_cons.
        destruct (Z.eqb_spec 0 c); [lia|]. rewrite IHj. reflexivity. }
      apply G. }
    assert (Hocc0 : occ 0 (repeat 0 k) = Z.of_nat k).
    { clear. induction k as [|k IH]; [reflexivity|]. simpl repeat. rewrite occ_cons, IH.
      rewrite Z.eqb_refl. lia. }
    destruct (reach_inv u n T zz HT m (repeat 0 k)) as (d & b & I). fold sa in I.
    eapply finish_returns; [exact I| |].
    - apply (main_bounded (repeat 0 k) _ [] []); [apply inv_start; assumption|].
      rewrite measure_start, Hocc0. exact Hk.
    - intros c Hc. assert (Hidle : forall l, occ c l = 0 -> pcs (run u (start n T zz m) l) c = Idle).
      { intros l Hl. assert (G : forall l s, occ c l = 0 -> pcs s c = Idle -> pcs (run u s l) c = Idle).
        { clear l Hl. induction l as [|x l IH]; intros s Hl Hs; [exact Hs|]. rewrite occ_cons in Hl.
          pose proof (occ_nonneg c l). destruct (Z.eqb_spec x c) as [Hx|Hx]; [lia|].
          simpl. apply IH; [lia|]. rewrite step_other_pc by lia. exact Hs. }
        apply G; [exact Hl|]. simpl. destruct (Z.eqb_spec c 0); [lia|reflexivity]. }
      unfold sa. rewrite Hidle by (apply Hocc; lia). reflexivity.
  Qed.
End Live.
