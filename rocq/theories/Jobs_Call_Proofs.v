(** Jobs_Call_Proofs.v - the outcome of a chunked call whose callbacks only store constants. *)
From Verif Require Import Base Threads_Model Threads_Proofs Threads_Counter_Proofs Jobs_Model Jobs_Proofs.

Lemma blen_val n w : 0 <= w < BL n -> blen n w = Z.min CH (n - CH * w).
Proof.
  intros Hw. unfold blen. rewrite land_mask. unfold BL in *. rewrite CH_val in *.
  destruct (Z.eqb_spec (w + 1) ((n + (16384 - 1)) / 16384)).
  - destruct (negb (n mod 16384 =? 0)) eqn:E2; lia.
  - lia.
Qed.

(** the pieces [start, start+len) handed to the callback *)
Definition piece_of (n : Z) (h : how) (st len : Z) : Prop :=
  match h with
  | Alone => st = 0 /\ len = n
  | Threaded _ _ _ => exists w, 0 <= w < BL n /\ st = CH * w /\ len = blen n w
  end.

Lemma piece_range n h st len : 0 <= n -> piece_of n h st len -> 0 <= st /\ 0 <= len /\ st + len <= n.
Proof.
  intros Hn. destruct h; cbn.
  - lia.
  - intros (w & Hw & -> & ->). rewrite blen_val by assumption. unfold BL in Hw. rewrite CH_val in *. lia.
Qed.

Lemma piece_cover n h i : 0 <= i < n -> exists st len, piece_of n h st len /\ st <= i < st + len.
Proof.
  intros Hi. destruct h; cbn.
  - exists 0, n. lia.
  - exists (CH * (i / CH)), (blen n (i / CH)).
    assert (Hw : 0 <= i / CH < BL n) by (unfold BL; rewrite CH_val; lia). split; [eauto|].
    rewrite blen_val by assumption. rewrite CH_val. lia.
Qed.

Lemma run_wprog {V} (l : list (Z * V)) (m : Z -> V) f : (forall a v, In (a, v) l -> v = f a) ->
  let m' := run_ops tt (map wr l) m in
  (forall a v, In (a, v) l -> m' a = v) /\ (forall a, (forall v, ~ In (a, v) l) -> m' a = m a).
Proof.
  intros Hf. unfold run_ops.
  assert (Hg : forall (m1 : Z -> V), let m' := snd (fold_left (fun lm op => do_op op (fst lm) (snd lm)) (map wr l) (tt, m1)) in
     (forall a v, In (a, v) l -> m' a = f a) /\ (forall a, (forall v, ~ In (a, v) l) -> m' a = m1 a) /\
     (forall a, m1 a = f a -> m' a = f a)).
  { clear m. induction l as [|[a0 v0] l IH]; intros m1; cbv zeta.
    - cbn. split; [intros a v []|]. auto.
    - cbn [map fold_left wr do_op stored fst snd]. unfold do_op at 2 4 6. cbn [wr stored fst snd].
      assert (Hf' : forall a v, In (a, v) l -> v = f a) by (intros; apply Hf; right; assumption).
      destruct (IH Hf' (zupd m1 a0 v0)) as (A & B & C). cbv zeta in *.
      assert (Hv0 : v0 = f a0) by (apply Hf; left; reflexivity).
      split; [|split].
      + intros a v [[= <- <-]|Hin]; [apply C; rewrite zupd_eq; exact Hv0|apply (A a v Hin)].
      + intros a Hno. rewrite B by (intros v Hv; apply (Hno v); right; exact Hv).
        apply zupd_neq. intros ->. apply (Hno v0). left; reflexivity.
      + intros a Ha. apply C. unfold zupd. destruct (Z.eqb_spec a a0) as [->|]; [exact Hv0|exact Ha]. }
  destruct (Hg m) as (A & B & _). cbv zeta in *. split; [|exact B].
  intros a v Hin. exact (eq_trans (A a v Hin) (eq_sym (Hf a v Hin))).
Qed.

Lemma wprog_call {V} n h (ws : Z -> Z -> list (Z * V)) (f : Z -> V) m m' : 0 <= n ->
  (forall st len a v, piece_of n h st len -> In (a, v) (ws st len) -> v = f a) ->
  chunk_call (wprog ws) tt n h m m' ->
  (forall st len a v, piece_of n h st len -> In (a, v) (ws st len) -> m' a = v) /\
  (forall a, (forall st len v, piece_of n h st len -> ~ In (a, v) (ws st len)) -> m' a = m a).
Proof.
  intros Hn Hf Hc. destruct h as [|T zz sched]; cbn [chunk_call piece_of] in *.
  - subst m'. unfold wprog. destruct (run_wprog (ws 0 n) m f) as [A B].
    { intros a v. apply Hf. auto. }
    split.
    + intros st len a v [-> ->]. apply A.
    + intros a Ha. apply B. intros v. apply Ha. auto.
  - destruct Hc as (_ & HT & Hc).
    destruct (jobs_rule (wprog ws) tt ChunkMode n T zz m HT f (fun _ => True) (fun _ _ _ _ => True)
       (fun st len k => option_map fst (nth_error (ws st len) k))) with (sched := sched) (m' := m') as (_ & A & B).
    + exact I.
    + auto.
    + intros w _. cbn. exact I.
    + intros w k op l m1 Hv. unfold valid in Hv. cbn [w0 tgt piece] in *. intros Hop _ _.
      unfold wprog in Hop. rewrite nth_error_map in Hop.
      destruct (nth_error (ws (CH * w) (blen n w)) k) as [[a0 v0]|] eqn:E; [|discriminate]. injection Hop as <-.
      cbn [option_map fst snd wr]. cbv zeta.
      assert (Hv0 : v0 = f a0) by (apply (Hf (CH * w) (blen n w)); [exists w; split; [lia|auto]|apply (nth_error_In _ _ E)]).
      split; [exact I|]. split; [exact Hv0|reflexivity].
    + exact Hc.
    + split.
      * intros st len a v (w & Hw & -> & ->) Hin. rewrite (Hf (CH * w) (blen n w) a v); [|eauto|exact Hin].
        apply (A w); [unfold valid; cbn; lia|]. unfold cell_of. cbn [piece].
        apply In_nth_error in Hin. destruct Hin as [k Hk]. exists k. unfold wprog. rewrite map_length, Hk.
        split; [|reflexivity]. apply nth_error_Some. congruence.
      * intros a Ha. apply B. intros w Hv Hcell. unfold valid in Hv. cbn [w0 tgt] in Hv. unfold cell_of in Hcell. cbn [piece] in Hcell.
        destruct Hcell as (k & _ & Hk). destruct (nth_error (ws (CH * w) (blen n w)) k) as [[a0 v0]|] eqn:E; [|discriminate].
        cbn in Hk. injection Hk as ->. apply (Ha (CH * w) (blen n w) v0); [exists w; split; [lia|auto]|apply (nth_error_In _ _ E)].
Qed.

(** a threaded call can return *)
Lemma chunk_call_can_return {L V} (prog : Z -> Z -> list (micro L V)) l0 n T zz m : WORK_ITEM_BIG <= n -> 0 <= T ->
  exists sched m', chunk_call prog l0 n (Threaded T zz sched) m m'.
Proof.
  intros HB HT. destruct (jobs_can_return prog l0 ChunkMode n T zz m) as (s & m' & H).
  - unfold WORK_ITEM_BIG, WORK_ITEM_CHUNK in HB; lia.
  - exact HT.
  - discriminate.
  - exists s, m'. cbn. auto.
Qed.

(** one thread running a callback from start to end *)
Lemma alone_rule {L V} (P : list (micro L V)) (l0 : L) (m : memory V) (f : Z -> V) (good : memory V -> Prop)
    (locok : nat -> L -> Prop) (wcell : nat -> option Z) :
  good m -> locok 0%nat l0 ->
  (forall m m', good m -> (forall a, m' a = m a \/ m' a = f a) -> good m') ->
  (forall k op l m, nth_error P k = Some op -> good m -> locok k l ->
    let r := op l m in
    locok (S k) (fst r) /\ match snd r with Some (a, v) => v = f a /\ wcell k = Some a | None => wcell k = None end) ->
  let m' := run_ops l0 P m in
  good m' /\ (forall k a, (k < length P)%nat -> wcell k = Some a -> m' a = f a) /\
  (forall a, (forall k, (k < length P)%nat -> wcell k <> Some a) -> m' a = m a).
Proof.
  intros Hg Hl Hgs Hop0. unfold run_ops. cbv zeta.
  assert (Hop : forall k op l m, nth_error P k = Some op -> good m -> locok k l ->
    let r := do_op op l m in
    good (snd r) /\ locok (S k) (fst r) /\
    (forall a, snd r a = m a \/ (snd r a = f a /\ wcell k = Some a)) /\
    (forall a, wcell k = Some a -> snd r a = f a)).
  { intros k op l m1 H1 H2 H3. destruct (Hop0 k op l m1 H1 H2 H3) as [A B]. unfold do_op. cbn [fst snd].
    assert (C : (forall a, stored m1 (snd (op l m1)) a = m1 a \/ (stored m1 (snd (op l m1)) a = f a /\ wcell k = Some a)) /\
                (forall a, wcell k = Some a -> stored m1 (snd (op l m1)) a = f a)).
    { destruct (snd (op l m1)) as [[x v]|]; cbn [stored].
      - destruct B as [-> B]. split; [intros a; unfold zupd; destruct (Z.eqb_spec a x) as [->|]; auto|]. intros a H. assert (a = x) as -> by congruence. apply zupd_eq.
      - split; [auto|]. intros a H. congruence. }
    destruct C as [C1 C2]. split; [|auto]. apply (Hgs m1 _ H2). intros a. destruct (C1 a) as [|[]]; auto. }
  clear Hop0.
  assert (Hgen : forall Q k l m1, (forall j, nth_error Q j = nth_error P (k + j)) -> good m1 -> locok k l ->
    let lm := fold_left (fun lm op => do_op op (fst lm) (snd lm)) Q (l, m1) in
    good (snd lm) /\
    (forall j a, (j < length Q)%nat -> wcell (k + j)%nat = Some a -> snd lm a = f a) /\
    (forall a, m1 a = f a -> snd lm a = f a) /\
    (forall a, (forall j, (j < length Q)%nat -> wcell (k + j)%nat <> Some a) -> snd lm a = m1 a)).
  { induction Q as [|op Q IH]; intros k l m1 HQ G HL; cbv zeta; cbn [fold_left].
    - cbn. split; [exact G|]. split; [intros; lia|]. auto.
    - pose proof (HQ 0%nat) as H0. rewrite Nat.add_0_r in H0. cbn in H0. symmetry in H0.
      destruct (Hop k op l m1 H0 G HL) as (A1 & A2 & A3 & A4). cbv zeta in *.
      assert (HQ' : forall j, nth_error Q j = nth_error P (S k + j)).
      { intros j. specialize (HQ (S j)). cbn [nth_error] in HQ. rewrite HQ. f_equal. lia. }
      specialize (IH (S k) (fst (do_op op l m1)) (snd (do_op op l m1)) HQ' A1 A2). cbv zeta in IH.
      replace (fst (do_op op l m1), snd (do_op op l m1)) with (do_op op l m1) in IH by (destruct (do_op op l m1); reflexivity).
      destruct IH as (B1 & B2 & B3 & B4). cbn [fst snd]. split; [exact B1|]. split; [|split].
      + intros j a Hj Hw. destruct j as [|j].
        * rewrite Nat.add_0_r in Hw. apply B3, A4, Hw.
        * cbn in Hj. apply (B2 j); [lia|]. rewrite <- Hw. f_equal. lia.
      + intros a Ha. apply B3. destruct (A3 a) as [->|[-> _]]; [exact Ha|reflexivity].
      + intros a Ha. rewrite B4.
        * destruct (A3 a) as [->|[_ E]]; [reflexivity|]. exfalso. apply (Ha 0%nat); [cbn; lia|]. now rewrite Nat.add_0_r.
        * intros j Hj E. apply (Ha (S j)); [cbn; lia|]. rewrite <- E. f_equal. lia. }
  destruct (Hgen P 0%nat l0 m) as (A & B & _ & C); [reflexivity|exact Hg|exact Hl|]. cbv zeta in *. cbn in B, C. auto.
Qed.

Lemma index_wcall {V} n h (ws : Z -> list (Z * V)) (f : Z -> V) m m' : 0 <= n ->
  (forall i a v, 0 <= i < n -> In (a, v) (ws i) -> v = f a) ->
  index_call (fun i => map wr (ws i)) tt n h m m' ->
  (forall i a v, 0 <= i < n -> In (a, v) (ws i) -> m' a = v) /\
  (forall a, (forall i v, 0 <= i < n -> ~ In (a, v) (ws i)) -> m' a = m a).
Proof.
  intros Hn Hf Hc. destruct h as [|T zz sched]; cbn [index_call] in Hc.
  - assert (Hg : forall k, 0 <= k <= n ->
      let mk := fold_left (fun m i => run_ops tt (map wr (ws i)) m) (zrange 0 k) m in
      (forall i a v, 0 <= i < k -> In (a, v) (ws i) -> mk a = f a) /\
      (forall a, (forall i v, 0 <= i < k -> ~ In (a, v) (ws i)) -> mk a = m a)).
    { intros k [Hk0 Hk]. revert Hk. pattern k. apply natlike_ind; [| |exact Hk0].
      - intros _. rewrite zrange_nil by lia. cbn. split; [intros; lia|auto].
      - clear k Hk0. intros k Hk IH Hk'. destruct (IH ltac:(lia)) as [A B]. cbv zeta in *.
        replace (Z.succ k) with (k + 1) by lia. rewrite zrange_snoc by lia. rewrite fold_left_app. cbn [fold_left].
        set (mk := fold_left _ (zrange 0 k) m) in *.
        destruct (run_wprog (ws k) mk f) as [C D]; [intros a v; apply Hf; lia|]. cbv zeta in *.
        assert (Hdec : forall a, (forall v, ~ In (a, v) (ws k)) \/ exists v, In (a, v) (ws k)).
        { intros a. clear. induction (ws k) as [|[a0 v0] l IH]; [left; auto|].
          destruct (Z.eq_dec a0 a) as [->|Hne]; [right; exists v0; left; reflexivity|].
          destruct IH as [IH|[v Hv]]; [left|right; exists v; right; exact Hv].
          intros v [[= E _]|Hin]; [contradiction|apply (IH v Hin)]. }
        split.
        + intros i a v Hi Hin. destruct (Hdec a) as [Hno|[v' Hv']].
          * rewrite (D a Hno). apply (A i a v); [|exact Hin].
            destruct (Z.eq_dec i k) as [->|]; [exfalso; apply (Hno v Hin)|lia].
          * rewrite (C a v' Hv'). apply (Hf k a v'); [lia|exact Hv'].
        + intros a Ha. rewrite D by (intros v; apply Ha; lia). apply B. intros i v Hi. apply Ha. lia. }
    destruct (Hg n ltac:(lia)) as [A B]. cbv zeta in *. subst m'. split; [|exact B].
    intros i a v Hi Hin. rewrite (A i a v Hi Hin). symmetry. apply (Hf i); assumption.
  - destruct Hc as (HT & Hc).
    destruct (jobs_rule (fun st _ => map wr (ws st)) tt IndexMode n T zz m HT f (fun _ => True) (fun _ _ _ _ => True)
       (fun st _ k => option_map fst (nth_error (ws st) k))) with (sched := sched) (m' := m') as (_ & A & B).
    + exact I.
    + auto.
    + intros w _. cbn. exact I.
    + intros w k op l m1 Hv. unfold valid in Hv. cbn [w0 tgt piece] in *. intros Hop _ _.
      rewrite nth_error_map in Hop.
      destruct (nth_error (ws (w - 1)) k) as [[a0 v0]|] eqn:E; [|discriminate]. injection Hop as <-.
      cbn [option_map fst snd wr]. cbv zeta.
      assert (Hv0 : v0 = f a0) by (apply (Hf (w - 1)); [lia|apply (nth_error_In _ _ E)]).
      split; [exact I|]. split; [exact Hv0|reflexivity].
    + exact Hc.
    + split.
      * intros i a v Hi Hin. rewrite (Hf i a v Hi Hin).
        apply (A (i + 1)); [unfold valid; cbn; lia|]. unfold cell_of. cbn [piece]. replace (i + 1 - 1) with i by lia.
        apply In_nth_error in Hin. destruct Hin as [k Hk]. exists k. rewrite map_length, Hk.
        split; [|reflexivity]. apply nth_error_Some. congruence.
      * intros a Ha. apply B. intros w Hv Hcell. unfold valid in Hv. cbn [w0 tgt] in Hv. unfold cell_of in Hcell. cbn [piece] in Hcell.
        destruct Hcell as (k & _ & Hk). destruct (nth_error (ws (w - 1)) k) as [[a0 v0]|] eqn:E; [|discriminate].
        cbn in Hk. injection Hk as ->. apply (Ha (w - 1) v0); [lia|apply (nth_error_In _ _ E)].
Qed.

Lemma index_call_can_return {L V} (cb : Z -> list (micro L V)) l0 n T zz m : 0 <= n -> 1 <= T ->
  exists sched m', index_call cb l0 n (Threaded T zz sched) m m'.
Proof.
  intros Hn HT. destruct (jobs_can_return (fun st _ => cb st) l0 IndexMode n T zz m) as (s & m' & H); [lia..|].
  exists s, m'. cbn. split; [lia|exact H].
Qed.
