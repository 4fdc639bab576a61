(** Sort_Quick_Proofs.v - quicksort_ sorts, and never overruns its fixed-size stack. *)
From Verif Require Import Base Sort_Model Sort_Base_Proofs Sort_Insert_Proofs Sort_Heap_Proofs.

Section Quick.
  Context {T : Type}.
  Variables (F : nat) (LT : T -> T -> option bool) (lt : T -> T -> bool) (P : T -> Prop).
  Hypothesis LT_ok : forall x y, P x -> P y -> LT x y = Some (lt x y).
  Hypothesis SW : strict_weak lt.
  Variable ok : Z -> bool.
  Notation le := (le lt).

  Lemma wp_swap {A} x y (f : unit -> prog T A) Q m :
    ok x = true -> ok y = true ->
    (forall m', (forall z, m' z = swapm m x y z) -> wp ok (f tt) Q m') ->
    wp ok (bind (swap x y) f) Q m.
  Proof.
    intros Hx Hy H. apply wp_bind. unfold swap.
    apply wp_rd; [exact Hx|]. apply wp_rd; [exact Hy|]. apply wp_st; [exact Hx|]. apply wp_store; [exact Hy|].
    apply H. intros z. unfold swapm, tr, zupd.
    destruct (Z.eqb_spec z x), (Z.eqb_spec z y); subst; try reflexivity.
  Qed.

  Lemma wp_swap_if {A} x y (f : unit -> prog T A) Q m :
    ok x = true -> ok y = true -> P (m x) -> P (m y) ->
    (forall m', (forall z, m' z = swapm m x y z) \/ (forall z, m' z = m z) -> le (m' y) (m' x) -> wp ok (f tt) Q m') ->
    wp ok (bind (swap_if LT x y) f) Q m.
  Proof.
    intros Hx Hy Px Py H. apply wp_bind. unfold swap_if.
    apply wp_rd; [exact Hx|]. apply wp_rd; [exact Hy|]. eapply wp_ask; [now apply LT_ok|].
    destruct (lt (m x) (m y)) eqn:E.
    - apply wp_conseq with (Q := fun _ m' => forall z, m' z = swapm m x y z).
      + unfold swap. apply wp_rd; [exact Hx|]. apply wp_rd; [exact Hy|]. apply wp_st; [exact Hx|]. apply wp_store; [exact Hy|].
        intros z. unfold swapm, tr, zupd. destruct (Z.eqb_spec z x), (Z.eqb_spec z y); subst; try reflexivity.
      + intros [] m' Hm'. apply H; [now left|]. rewrite !Hm', swapm_l, swapm_r. now apply lt_le.
    - apply wp_ret. apply H; [right; reflexivity|exact E].
  Qed.

  (** [m'] differs from [m] by a permutation of [lo, hi) *)
  Definition rearr (m m' : Z -> T) lo hi : Prop :=
    Permutation (seg m' lo hi) (seg m lo hi) /\ same_out m m' lo hi.

  Lemma rearr_refl m lo hi : rearr m m lo hi.
  Proof. split; [apply Permutation_refl|intros x _; reflexivity]. Qed.
  Lemma rearr_trans a b c lo hi : rearr a b lo hi -> rearr b c lo hi -> rearr a c lo hi.
  Proof. intros [H1 H2] [H3 H4]. split; [now apply Permutation_trans with (seg b lo hi)|eapply same_out_trans; eauto]. Qed.
  Lemma rearr_swap m m' x y lo hi : lo <= x < hi -> lo <= y < hi -> (forall z, m' z = swapm m x y z) -> rearr m m' lo hi.
  Proof.
    intros Hx Hy H. split.
    - rewrite (seg_ext _ _ _ _ (fun z _ => H z)). now apply seg_swap.
    - intros z Hz. rewrite H. apply swapm_o; lia.
  Qed.
  Lemma rearr_swap_if m m' x y lo hi : lo <= x < hi -> lo <= y < hi ->
    (forall z, m' z = swapm m x y z) \/ (forall z, m' z = m z) -> rearr m m' lo hi.
  Proof.
    intros Hx Hy [H|H]; [now apply rearr_swap with x y|].
    split; [|intros z _; apply H]. rewrite (seg_ext _ _ _ _ (fun z _ => H z)). apply Permutation_refl.
  Qed.
  Lemma rearr_widen m m' lo hi lo' hi' : lo' <= lo -> lo <= hi -> hi <= hi' -> rearr m m' lo hi -> rearr m m' lo' hi'.
  Proof.
    intros H1 H2 H3 [Hp Hf]. split; [eapply seg_perm_widen; eauto|]. intros x Hx. apply Hf. lia.
  Qed.

  Definition split_at (m : Z -> T) pl pr pi : Prop :=
    pl < pi < pr /\ (forall k, pl <= k < pi -> le (m k) (m pi)) /\ (forall k, pi < k <= pr -> le (m pi) (m k)).

  Lemma partition_ok pl pr m0 (Q : Z -> (Z -> T) -> Prop) :
    SMALL_QUICKSORT < pr - pl ->
    (forall x, pl <= x < pr + 1 -> ok x = true) -> (forall x, pl <= x < pr + 1 -> P (m0 x)) ->
    pr - pl + 1 < Z.of_nat F ->
    (forall pi m, split_at m pl pr pi -> rearr m0 m pl (pr + 1) -> Q pi m) ->
    wp ok (partition F LT pl pr) Q m0.
  Proof.
    intros Hsz Hok HP HF HQ. unfold SMALL_QUICKSORT in Hsz. unfold partition.
    set (pm := pl + (pr - pl) / 2). assert (Hpm : pl < pm < pr - 1) by (unfold pm; lia). clearbody pm.
    apply wp_swap_if; try (apply Hok; lia); try (apply HP; lia). intros m1 S1 L1.
    assert (R1 : rearr m0 m1 pl (pr + 1)) by (eapply rearr_swap_if; [| |exact S1]; lia).
    assert (P1 : forall x, pl <= x < pr + 1 -> P (m1 x)) by (eapply seg_perm_all; [apply R1|exact HP]).
    apply wp_swap_if; try (apply Hok; lia); try (apply P1; lia). intros m2 S2 L2.
    assert (R2 : rearr m0 m2 pl (pr + 1)) by (eapply rearr_trans; [exact R1|]; eapply rearr_swap_if; [| |exact S2]; lia).
    assert (P2 : forall x, pl <= x < pr + 1 -> P (m2 x)) by (eapply seg_perm_all; [apply R2|exact HP]).
    assert (L2' : le (m2 pl) (m2 pr)).
    { destruct S2 as [S2|S2].
      - rewrite !S2, swapm_l, swapm_o by lia. exact L1.
      - rewrite !S2 in *. eapply le_trans; [exact SW|exact L1|exact L2]. }
    apply wp_swap_if; try (apply Hok; lia); try (apply P2; lia). intros m3 S3 L3.
    assert (R3 : rearr m0 m3 pl (pr + 1)) by (eapply rearr_trans; [exact R2|]; eapply rearr_swap_if; [| |exact S3]; lia).
    assert (L3' : le (m3 pm) (m3 pr)).
    { destruct S3 as [S3|S3]; rewrite !S3.
      - rewrite swapm_l, swapm_o by lia. exact L2'.
      - exact L2. }
    clear S1 L1 R1 P1 S2 L2 R2 P2 L2' S3 m1 m2.
    apply wp_rd; [apply Hok; lia|]. set (vp := m3 pm).
    assert (Pvp : P vp) by (unfold vp; eapply seg_perm_all with (m := m0) (lo := pl) (hi := pr + 1); [apply R3|exact HP|lia]).
    apply wp_swap; try (apply Hok; lia). intros m4 S4.
    assert (R4 : rearr m0 m4 pl (pr + 1)) by (eapply rearr_trans; [exact R3|]; eapply rearr_swap; [| |exact S4]; lia).
    assert (A1 : m4 (pr - 1) = vp) by (rewrite S4, swapm_r; reflexivity).
    assert (A2 : le (m4 pl) vp) by (rewrite S4, swapm_o by lia; exact L3).
    assert (A3 : le vp (m4 pr)) by (rewrite S4, swapm_o by lia; exact L3').
    clear S4 L3 L3' R3. clearbody vp. clear m3.
    eapply wp_loop_b with (Inv := fun ij m => let '(pi, pj) := ij in
          pl <= pi /\ pi < pj /\ pj <= pr - 1 /\ rearr m0 m pl (pr + 1) /\ m (pr - 1) = vp /\
          (forall k, pl <= k <= pi -> le (m k) vp) /\ (forall k, pj <= k <= pr -> le vp (m k)))
      (meas := fun ij => snd ij - fst ij)
      (P := fun pi m => pl < pi < pr /\ rearr m0 m pl (pr + 1) /\ m (pr - 1) = vp /\
          (forall k, pl <= k < pi -> le (m k) vp) /\ (forall k, pi <= k <= pr -> le vp (m k))).
    - intros [pi pj] m (H1 & H2 & H3 & R & Hv & Hlo & Hhi). cbn [fst snd].
      assert (HPm : forall x, pl <= x < pr + 1 -> P (m x)) by (eapply seg_perm_all; [apply R|exact HP]).
      eapply wp_loop_b with (Inv := fun p m' => m' = m /\ pi <= p < pj /\ (forall k, pl <= k <= p -> le (m k) vp))
        (meas := fun p => pj - p)
        (P := fun p m' => m' = m /\ pi < p <= pj /\ (forall k, pl <= k < p -> le (m k) vp) /\ le vp (m p)).
      { intros p m' (-> & Hp & Hle).
        apply wp_rd; [apply Hok; lia|]. eapply wp_ask; [apply LT_ok; [apply HPm; lia|exact Pvp]|].
        destruct (lt (m (p + 1)) vp) eqn:E; apply wp_ret.
        - assert (p + 1 <> pj).
          { intros E'. rewrite E' in E. specialize (Hhi pj ltac:(lia)). unfold Sort_Base_Proofs.le in Hhi. congruence. }
          split; [|lia]. split; [reflexivity|]. split; [lia|]. intros k Hk.
          destruct (Z.eq_dec k (p + 1)) as [->|]; [now apply lt_le|apply Hle; lia].
        - split; [reflexivity|]. split; [lia|]. split; [intros k Hk; apply Hle; lia|exact E]. }
      { intros p m' (_ & Hp & _). lia. }
      { split; [reflexivity|]. split; [lia|]. exact Hlo. }
      { lia. }
      intros pi' m' (-> & Hpi' & Hlo' & Hge').
      eapply wp_loop_b with (Inv := fun q m' => m' = m /\ pi < q <= pj /\ (forall k, q <= k <= pr -> le vp (m k)))
        (meas := fun q => q - pi)
        (P := fun q m' => m' = m /\ pi <= q < pj /\ (forall k, q < k <= pr -> le vp (m k)) /\ le (m q) vp).
      { intros q m' (-> & Hq & Hle).
        apply wp_rd; [apply Hok; lia|]. eapply wp_ask; [apply LT_ok; [exact Pvp|apply HPm; lia]|].
        destruct (lt vp (m (q - 1))) eqn:E; apply wp_ret.
        - assert (q - 1 <> pi).
          { intros E'. rewrite E' in E. specialize (Hlo pi ltac:(lia)). unfold Sort_Base_Proofs.le in Hlo. congruence. }
          split; [|lia]. split; [reflexivity|]. split; [lia|]. intros k Hk.
          destruct (Z.eq_dec k (q - 1)) as [->|]; [now apply lt_le|apply Hle; lia].
        - split; [reflexivity|]. split; [lia|]. split; [intros k Hk; apply Hle; lia|exact E]. }
      { intros q m' (_ & Hq & _). lia. }
      { split; [reflexivity|]. split; [lia|]. exact Hhi. }
      { lia. }
      intros pj' m' (-> & Hpj' & Hhi' & Hle').
      destruct (pi' >=? pj') eqn:E.
      + apply wp_ret. split; [lia|]. split; [exact R|]. split; [exact Hv|]. split; [exact Hlo'|].
        intros k Hk. destruct (Z.eq_dec k pi') as [->|]; [exact Hge'|]. apply Hhi'. lia.
      + apply wp_swap; try (apply Hok; lia). intros m' Sm. apply wp_ret. cbn [fst snd].
        split; [|lia]. split; [lia|]. split; [lia|]. split; [lia|].
        split; [eapply rearr_trans; [exact R|]; eapply rearr_swap; [| |exact Sm]; lia|].
        split; [rewrite Sm, swapm_o by lia; exact Hv|]. split.
        * intros k Hk. rewrite Sm. destruct (Z.eq_dec k pi') as [->|]; [rewrite swapm_l; exact Hle'|].
          rewrite swapm_o by lia. apply Hlo'. lia.
        * intros k Hk. rewrite Sm. destruct (Z.eq_dec k pj') as [->|]; [rewrite swapm_r; exact Hge'|].
          rewrite swapm_o by lia. apply Hhi'. lia.
    - intros [pi pj] m (H1 & H2 & _). cbn. lia.
    - repeat (split; [first [lia|assumption]|]). split.
      + intros k Hk. replace k with pl by lia. exact A2.
      + intros k Hk. destruct (Z.eq_dec k pr) as [->|]; [exact A3|]. replace k with (pr - 1) by lia. rewrite A1. now apply le_refl.
    - cbn. lia.
    - intros pi m (Hpi & R & Hv & Hlo & Hhi).
      apply wp_swap; try (apply Hok; lia). intros m' Sm. apply wp_ret. apply HQ.
      + assert (E : m' pi = vp) by (rewrite Sm, swapm_l; exact Hv).
        split; [lia|]. rewrite E. split.
        * intros k Hk. rewrite Sm, swapm_o by lia. now apply Hlo.
        * intros k Hk. rewrite Sm. destruct (Z.eq_dec k (pr - 1)) as [->|]; [rewrite swapm_r; apply Hhi; lia|].
          rewrite swapm_o by lia. apply Hhi. lia.
      + eapply rearr_trans; [exact R|]. eapply rearr_swap; [| |exact Sm]; lia.
  Qed.

  (** ** pending pieces *)
  Definition covered (W : list (Z * Z)) (i j : Z) : Prop := exists l r, In (l, r) W /\ l <= i /\ j <= r.
  Definition part_sorted m lo hi W : Prop :=
    forall i j, lo <= i < j -> j < hi -> covered W i j \/ le (m i) (m j).
  Definition apart (a b : Z * Z) : Prop := snd a < fst b \/ snd b < fst a.
  Definition pieces lo hi (W : list (Z * Z)) : Prop :=
    ForallOrdPairs apart W /\ forall l r, In (l, r) W -> lo <= l /\ l <= r + 1 /\ r < hi.

  Lemma refine_piece m m' lo hi l r W W1 :
    pieces lo hi ((l, r) :: W) -> part_sorted m lo hi ((l, r) :: W) ->
    rearr m m' l (r + 1) -> part_sorted m' l (r + 1) W1 ->
    part_sorted m' lo hi (W1 ++ W).
  Proof.
    intros [Hd Hin] Hs [Hp Hf] Hs1 i j Hij Hj.
    inversion Hd as [|? ? Hall Hd']; subst. rewrite Forall_forall in Hall.
    assert (Hcov : forall i j, covered ((l, r) :: W) i j -> ~ (l <= i /\ j <= r) -> covered W i j).
    { intros i' j' (l' & r' & Hin' & H1 & H2) Hno. destruct Hin' as [E|Hin']; [inversion E; subst; tauto|]. exists l', r'. auto. }
    assert (Hweak : covered W i j -> covered (W1 ++ W) i j \/ le (m' i) (m' j)).
    { intros (l' & r' & Hin' & H1 & H2). left. exists l', r'. split; [apply in_or_app; now right|auto]. }
    assert (Hm' : forall k, l <= k <= r -> exists k0, l <= k0 <= r /\ m' k = m k0).
    { intros k Hk. assert (Hi : In (m' k) (seg m l (r + 1))).
      { eapply Permutation_in; [exact Hp|]. apply seg_In. exists k. split; [lia|reflexivity]. }
      apply seg_In in Hi. destruct Hi as (k0 & H0 & E0). exists k0. split; [lia|now symmetry]. }
    (* a piece of W meeting [l,r] is impossible *)
    assert (Hout : forall k x, l <= k <= r -> ~ (l <= x <= r) -> (k < x -> covered W k x -> False) /\ (x < k -> covered W x k -> False)).
    { intros k x Hk Hx. split; intros Hkx (l' & r' & Hin' & H1 & H2); specialize (Hall _ Hin'); unfold apart in Hall; cbn in Hall;
        destruct (Z_le_gt_dec l' r'); lia. }
    destruct (Z_le_gt_dec l i) as [Hli|Hli]; [destruct (Z_le_gt_dec i r) as [Hir|Hir]|].
    - destruct (Z_le_gt_dec j r) as [Hjr|Hjr].
      + destruct (Hs1 i j ltac:(lia) ltac:(lia)) as [(l' & r' & Hin' & H1 & H2)|H]; [|now right].
        left. exists l', r'. split; [apply in_or_app; now left|auto].
      + right. rewrite (Hf j) by lia. destruct (Hm' i ltac:(lia)) as (k0 & Hk0 & ->).
        assert (Hb := Hin l r (or_introl eq_refl)). destruct (Hs k0 j ltac:(lia) ltac:(lia)) as [Hc|H]; [|exact H].
        exfalso. apply Hcov in Hc; [|lia]. exact (proj1 (Hout k0 j ltac:(lia) ltac:(lia)) ltac:(lia) Hc).
    - rewrite (Hf i), (Hf j) by lia. destruct (Hs i j ltac:(lia) ltac:(lia)) as [Hc|H]; [|now right].
      apply Hcov in Hc; [|lia]. rewrite <- (Hf i), <- (Hf j) by lia. now apply Hweak.
    - destruct (Z_le_gt_dec j r) as [Hjr|Hjr]; [destruct (Z_le_gt_dec l j) as [Hlj|Hlj]|].
      + right. rewrite (Hf i) by lia. destruct (Hm' j ltac:(lia)) as (k0 & Hk0 & ->).
        assert (Hb := Hin l r (or_introl eq_refl)). destruct (Hs i k0 ltac:(lia) ltac:(lia)) as [Hc|H]; [|exact H].
        exfalso. apply Hcov in Hc; [|lia]. exact (proj2 (Hout k0 i ltac:(lia) ltac:(lia)) ltac:(lia) Hc).
      + rewrite (Hf i), (Hf j) by lia. destruct (Hs i j ltac:(lia) ltac:(lia)) as [Hc|H]; [|now right].
        apply Hcov in Hc; [|lia]. rewrite <- (Hf i), <- (Hf j) by lia. now apply Hweak.
      + rewrite (Hf i), (Hf j) by lia. destruct (Hs i j ltac:(lia) ltac:(lia)) as [Hc|H]; [|now right].
        apply Hcov in Hc; [|lia]. rewrite <- (Hf i), <- (Hf j) by lia. now apply Hweak.
  Qed.

  Lemma split_part_sorted m pl pr pi : split_at m pl pr pi ->
    part_sorted m pl (pr + 1) [(pl, pi - 1); (pi + 1, pr)].
  Proof.
    intros (Hpi & H1 & H2) i j Hij Hj.
    destruct (Z_lt_le_dec j pi) as [|Hj'].
    { left. exists pl, (pi - 1). split; [now left|lia]. }
    destruct (Z_le_gt_dec i pi) as [Hi|].
    2:{ left. exists (pi + 1), pr. split; [right; now left|lia]. }
    right. destruct (Z.eq_dec i pi) as [->|Hni]; [apply H2; lia|].
    destruct (Z.eq_dec j pi) as [->|Hnj]; [apply H1; lia|].
    eapply le_trans; [exact SW|apply H1; lia|apply H2; lia].
  Qed.

  Lemma pieces_split lo hi pl pr pi W : pl < pi < pr -> pieces lo hi ((pl, pr) :: W) ->
    pieces lo hi ((pl, pi - 1) :: (pi + 1, pr) :: W).
  Proof.
    intros Hpi [Hd Hin]. inversion Hd as [|? ? Hall Hd']; subst. rewrite Forall_forall in Hall.
    pose proof (Hin pl pr (or_introl eq_refl)) as Hb.
    split.
    - constructor; [|constructor; [|exact Hd']].
      + constructor; [left; cbn; lia|]. apply Forall_forall. intros x Hx. specialize (Hall x Hx). unfold apart in *. cbn in *. lia.
      + apply Forall_forall. intros x Hx. specialize (Hall x Hx). unfold apart in *. cbn in *. lia.
    - intros l r [E|[E|Hx]]; [inversion E; subst; lia|inversion E; subst; lia|]. apply Hin. now right.
  Qed.

  Lemma pieces_perm lo hi a b W : pieces lo hi (a :: b :: W) -> pieces lo hi (b :: a :: W).
  Proof.
    intros [Hd Hin]. split.
    - inversion Hd as [|? ? H1 H2]; subst. inversion H2 as [|? ? H3 H4]; subst.
      inversion H1 as [|? ? H5 H6]; subst. constructor; [|constructor; assumption].
      constructor; [unfold apart in *; lia|assumption].
    - intros l r [E|[E|Hx]]; apply Hin; [right; now left|now left|right; now right].
  Qed.

  Lemma part_sorted_incl m lo hi W W' : (forall x, In x W -> In x W') -> part_sorted m lo hi W -> part_sorted m lo hi W'.
  Proof.
    intros Hi H i j Hij Hj. destruct (H i j Hij Hj) as [(l & r & Hin & Hx)|]; [left; exists l, r; auto|now right].
  Qed.

  (** the frames of the explicit stack, as pieces; and the halving bound *)
  Definition pc (e : frame) : Z * Z := (fst (fst e), snd (fst e)).
  Fixpoint bounded (N : Z) (st : list frame) : Prop :=
    match st with
    | [] => True
    | (l, r, _) :: st' => (r - l + 1) * 2 ^ Z.of_nat (length st') <= N /\ bounded N st'
    end.
  Definition weight (l r : Z) : Z := 2 * (r - l + 1) + 1.
  Definition total (st : list frame) : Z := fold_right (fun e acc => weight (fst (fst e)) (snd (fst e)) + acc) 0 st.

  Record qinv (m0 : Z -> T) (lo n : Z) (s : Z * Z * Z * list frame) (m : Z -> T) : Prop := {
    q_pieces : let '(pl, pr, cd, st) := s in pieces lo (lo + n) ((pl, pr) :: map pc st);
    q_sorted : let '(pl, pr, cd, st) := s in part_sorted m lo (lo + n) ((pl, pr) :: map pc st);
    q_rearr : rearr m0 m lo (lo + n);
    q_bound : let '(pl, pr, cd, st) := s in (pr - pl + 1) * 2 ^ Z.of_nat (length st) <= n /\ bounded n st;
  }.
  Definition qmeas (s : Z * Z * Z * list frame) : Z := let '(pl, pr, cd, st) := s in weight pl pr + total st.

  Lemma total_nonneg lo hi st : (forall l r, In (l, r) (map pc st) -> lo <= l /\ l <= r + 1 /\ r < hi) -> 0 <= total st.
  Proof.
    induction st as [|[[l r] d] st IH]; intros H.
    - cbn. lia.
    - assert (H0 := H l r (or_introl eq_refl)). change (total ((l, r, d) :: st)) with (weight l r + total st). unfold weight.
      assert (0 <= total st) by (apply IH; intros l' r' Hx; apply H; now right). lia.
  Qed.

  Lemma pow2_pos k : 0 < 2 ^ Z.of_nat k.
  Proof. apply Z.pow_pos_nonneg; lia. Qed.

  (** a stack of [k] frames above a piece of more than 30 items has room for one more: the piece has at most n/2^k items *)
  Lemma push_ok e st n s (f : list frame -> prog T (Z * Z * Z * list frame + Z * Z * Z * list frame)) Q m :
    n < 2 ^ 63 -> SMALL_QUICKSORT < s - 1 -> s * 2 ^ Z.of_nat (length st) <= n ->
    wp ok (f (e :: st)) Q m -> wp ok (bind (push e st) f) Q m.
  Proof.
    intros Hn Hs Hb H. unfold push.
    assert (Z.of_nat (length st) < 63).
    { destruct (Z_lt_le_dec (Z.of_nat (length st)) 63) as [|H63]; [assumption|exfalso].
      pose proof (Z.pow_pos_nonneg 2 (Z.of_nat (length st)) ltac:(lia) ltac:(lia)).
      assert (Hle63 : 2 ^ 63 <= 2 ^ Z.of_nat (length st)) by (apply Z.pow_le_mono_r; lia).
      remember (2 ^ 63) as b63. remember (2 ^ Z.of_nat (length st)) as pk. clear Heqb63 Heqpk.
      unfold SMALL_QUICKSORT in Hs. nia. }
    unfold PYA_QS_STACK.
    destruct ((2 * (Z.of_nat (length st) + 1) <=? 128) && (Z.of_nat (length st) + 1 <=? 128)) eqn:E; [exact H|lia].
  Qed.

  Lemma qs_inner_ok lo n m0 s m (Q : Z * Z * Z * list frame -> (Z -> T) -> Prop) :
    0 <= n < 2 ^ 63 ->
    (forall x, lo <= x < lo + n -> ok x = true) -> (forall x, lo <= x < lo + n -> P (m0 x)) ->
    n + 1 < Z.of_nat F ->
    qinv m0 lo n s m ->
    (forall s' m', qinv m0 lo n s' m' -> qmeas s' <= qmeas s -> Q s' m') ->
    wp ok (qs_inner F LT s) Q m.
  Proof.
    intros Hn Hok HP HF Hinv HQ. unfold qs_inner.
    apply wp_loop with (Inv := fun s' m' => qinv m0 lo n s' m' /\ qmeas s' <= qmeas s)
      (meas := fun s' => let '(pl, pr, cd, st) := s' in pr - pl + 1).
    - intros [[[pl pr] cd] st] m' [Hq Hm]. destruct Hq as [Hpc Hso Hre Hbo].
      destruct (SMALL_QUICKSORT <? pr - pl) eqn:E.
      2:{ apply wp_ret. apply HQ; [constructor; assumption|exact Hm]. }
      assert (Hb := proj2 Hpc pl pr (or_introl eq_refl)).
      apply wp_bind. unfold SMALL_QUICKSORT in *.
      assert (HPm : forall x, lo <= x < lo + n -> P (m' x)) by (eapply seg_perm_all; [apply Hre|exact HP]).
      apply partition_ok.
      + unfold SMALL_QUICKSORT. lia.
      + intros x Hx. apply Hok. lia.
      + intros x Hx. apply HPm. lia.
      + lia.
      + intros pi m1 Hsp Hre1. assert (Hpi := proj1 Hsp).
        destruct Hbo as [Hb1 Hb2].
        pose proof (pow2_pos (length st)) as Hpow.
        assert (Hre2 : rearr m0 m1 lo (lo + n)).
        { eapply rearr_trans; [exact Hre|]. eapply rearr_widen; [| | |exact Hre1]; lia. }
        pose proof (pieces_split _ _ _ _ _ _ Hpi Hpc) as Hpc'.
        assert (Hso' : part_sorted m1 lo (lo + n) ([(pl, pi - 1); (pi + 1, pr)] ++ map pc st)).
        { eapply refine_piece; [exact Hpc|exact Hso|exact Hre1|]. now apply split_part_sorted. }
        cbn [app] in Hso'.
        assert (Hp2 : 2 ^ Z.of_nat (S (length st)) = 2 * 2 ^ Z.of_nat (length st)).
        { rewrite Nat2Z.inj_succ, Z.pow_succ_r; lia. }
        destruct (pi - pl <? pr - pi) eqn:E2.
        * apply push_ok with (n := n) (s := pr - pl + 1); [lia|unfold SMALL_QUICKSORT; lia|exact Hb1|].
          apply wp_ret. split; [split|lia].
          -- constructor.
             ++ exact Hpc'.
             ++ exact Hso'.
             ++ exact Hre2.
             ++ cbn [length bounded]. rewrite Hp2. split; [nia|]. split; [nia|exact Hb2].
          -- unfold qmeas, total in *. cbn [fold_right fst snd] in *. unfold weight in *. lia.
        * apply push_ok with (n := n) (s := pr - pl + 1); [lia|unfold SMALL_QUICKSORT; lia|exact Hb1|].
          apply wp_ret. split; [split|lia].
          -- constructor.
             ++ apply pieces_perm. exact Hpc'.
             ++ eapply part_sorted_incl; [|exact Hso']. cbn. tauto.
             ++ exact Hre2.
             ++ cbn [length bounded]. rewrite Hp2. split; [nia|]. split; [nia|exact Hb2].
          -- unfold qmeas, total in *. cbn [fold_right fst snd] in *. unfold weight in *. lia.
    - intros [[[pl pr] cd] st] m' [Hq _]. destruct Hq as [Hpc _ _ _].
      assert (Hb := proj2 Hpc pl pr (or_introl eq_refl)). lia.
    - split; [exact Hinv|lia].
    - destruct s as [[[pl pr] cd] st]. destruct Hinv as [Hpc _ _ _].
      assert (Hb := proj2 Hpc pl pr (or_introl eq_refl)). lia.
  Qed.

  Lemma quicksort_ok start n m0 (Q : unit -> (Z -> T) -> Prop) :
    0 <= n < 2 ^ 63 ->
    (forall x, start <= x < start + n -> ok x = true) -> (forall x, start <= x < start + n -> P (m0 x)) ->
    2 * n + 1 < Z.of_nat F ->
    (forall m, sort_post lt m0 start (start + n) m -> Q tt m) ->
    wp ok (quicksort_ F LT start n) Q m0.
  Proof.
    intros Hn Hok HP HF HQ. unfold quicksort_.
    apply wp_loop with (Inv := qinv m0 start n) (meas := qmeas).
    - intros [[[pl pr] cd] st] m Hq.
      (* what both branches establish: the current piece sorted, stack st' *)
      assert (Hfin : forall pl pr cd st m m', qinv m0 start n (pl, pr, cd, st) m ->
                 rearr m m' pl (pr + 1) -> sorted_seg lt m' pl (pr + 1) ->
         wp ok (match st with [] => Ret (inr tt) | (l, r, d) :: st' => Ret (inl (l, r, d, st')) end)
           (fun r m'' => match r with inl s' => qinv m0 start n s' m'' /\ qmeas s' < qmeas (pl, pr, cd, st)
                                     | inr v => Q v m'' end) m').
      { clear pl pr cd st m Hq. intros pl pr cd st m m' [Hpc Hso Hre Hbo] Hre1 Hs1.
        assert (Hb := proj2 Hpc pl pr (or_introl eq_refl)).
        assert (Hso' : part_sorted m' start (start + n) ([] ++ map pc st)).
        { eapply refine_piece; [exact Hpc|exact Hso|exact Hre1|]. intros i j Hi Hj. right. now apply Hs1. }
        assert (Hre' : rearr m0 m' start (start + n)).
        { eapply rearr_trans; [exact Hre|]. eapply rearr_widen; [| | |exact Hre1]; lia. }
        destruct st as [|[[l r] d] st']; apply wp_ret.
        - apply HQ. split; [apply Hre'|]. split; [|apply Hre'].
          intros i j Hi Hj. destruct (Hso' i j Hi Hj) as [(l & r & [] & _)|H]; exact H.
        - split.
          + destruct Hpc as [Hd Hin]. destruct Hbo as [_ [Hb1 Hb2]]. constructor.
            * split; [now inversion Hd|]. intros l' r' Hx. apply Hin. now right.
            * exact Hso'.
            * exact Hre'.
            * split; assumption.
          + unfold qmeas. change (total ((l, r, d) :: st')) with (weight l r + total st'). unfold weight. lia. }
      destruct (0 <=? cd) eqn:Ecd.
      + apply wp_bind. apply wp_bind. apply qs_inner_ok with (lo := start) (n := n) (m0 := m0); try assumption; try lia.
        intros [[[pl' pr'] cd'] st'] m' Hq' Hm'. apply wp_bind.
        assert (Hb := proj2 (q_pieces _ _ _ _ _ Hq') pl' pr' (or_introl eq_refl)).
        assert (HPm : forall x, start <= x < start + n -> P (m' x)).
        { eapply seg_perm_all; [apply (q_rearr _ _ _ _ _ Hq')|exact HP]. }
        apply insertion_ok with (lt := lt) (P := P); try assumption.
        * intros x Hx. apply Hok. lia.
        * intros x Hx. apply HPm. lia.
        * lia.
        * intros m'' (H1 & H2 & H3). apply wp_ret.
          eapply wp_conseq; [apply (Hfin pl' pr' cd' st' m' m'' Hq'); [split; [apply H1|exact H3]|exact H2]|].
          intros [s'|v] mm Hr; [|exact Hr]. destruct Hr as [Hr1 Hr2]. split; [exact Hr1|lia].
      + apply wp_bind. apply wp_bind.
        assert (Hb := proj2 (q_pieces _ _ _ _ _ Hq) pl pr (or_introl eq_refl)).
        assert (HPm : forall x, start <= x < start + n -> P (m x)).
        { eapply seg_perm_all; [apply (q_rearr _ _ _ _ _ Hq)|exact HP]. }
        apply heapsort_ok with (lt := lt) (P := P); try assumption.
        * lia.
        * intros x Hx. apply Hok. lia.
        * intros x Hx. apply HPm. lia.
        * lia.
        * intros m'' (H1 & H2 & H3). apply wp_ret.
          replace (pl + (pr - pl + 1)) with (pr + 1) in * by lia.
          apply (Hfin pl pr cd st m m'' Hq); [split; assumption|exact H2].
    - intros [[[pl pr] cd] st] m [Hpc _ _ _]. unfold qmeas, weight.
      assert (Hb := proj2 Hpc pl pr (or_introl eq_refl)).
      assert (0 <= total st) by (eapply total_nonneg; intros l r Hx; apply (proj2 Hpc l r); now right). lia.
    - constructor.
      + split; [constructor; constructor|]. intros l r [E|[]]. inversion E; subst. lia.
      + intros i j Hi Hj. left. exists start, (start + n - 1). split; [now left|lia].
      + apply rearr_refl.
      + cbn. split; [lia|exact I].
    - unfold qmeas, weight. cbn. lia.
  Qed.
End Quick.
