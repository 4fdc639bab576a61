(** Threads_Proofs.v - invariants of the channel machine of Threads_Model.v. *)
From Verif Require Import Base Threads_Model.

Section Arith.
  Variables (n T : Z).
  Hypothesis Hn : 0 <= n.
  Hypothesis HT : 0 <= T.

  Definition CH := WORK_ITEM_CHUNK.
  Definition BL := (n + (CH - 1)) / CH.
  Definition th := T + 1.
  Definition clast (i : Z) := BL / th + (if i <? BL mod th then 1 else 0).
  Definition blen (lb : Z) :=
    if lb + 1 =? BL then if negb (Z.land n WORK_ITEM_MASK =? 0) then Z.land n WORK_ITEM_MASK else CH else CH.

  Lemma CH_val : CH = 16384. Proof. reflexivity. Qed.

  Lemma land_mask : Z.land n WORK_ITEM_MASK = n mod CH.
  Proof.
    change WORK_ITEM_MASK with (Z.ones 14). rewrite Z.land_ones by lia. reflexivity.
  Qed.

  Lemma BL_nonneg : 0 <= BL.
  Proof. unfold BL. rewrite CH_val. lia. Qed.

  Lemma blen_pos lb : 0 <= lb < BL -> 0 < blen lb <= CH.
  Proof.
    unfold blen. rewrite land_mask. unfold BL. rewrite CH_val. intros H.
    destruct (lb + 1 =? _) eqn:E1; [|lia].
    destruct (negb _) eqn:E2; lia.
  Qed.

  (** the elements of block lb are exactly those of the array whose quotient by CH is lb *)
  Lemma blen_elems lb e : 0 <= lb < BL ->
    (CH * lb <= e < CH * lb + blen lb <-> 0 <= e < n /\ e / CH = lb).
  Proof.
    unfold blen. rewrite land_mask. unfold BL. rewrite CH_val. intros H.
    destruct (lb + 1 =? _) eqn:E1.
    - destruct (negb _) eqn:E2; lia.
    - lia.
  Qed.

  Lemma block_of_elem e : 0 <= e < n -> 0 <= e / CH < BL.
  Proof. unfold BL. rewrite CH_val. lia. Qed.

  Variable zz : bool.
  Definition lblock (i b : Z) := (if zz then clast i - b - 1 else b) * th + i.
  Definition raw (lb : Z) := if zz then clast (lb mod th) - lb / th - 1 else lb / th.

  Lemma clast_block i q : 0 <= i < th -> 0 <= q < clast i -> 0 <= q * th + i < BL.
  Proof.
    unfold clast. intros Hi Hq.
    assert (Hth : 0 < th) by (unfold th; lia).
    pose proof (Z.div_mod BL th ltac:(lia)) as Hdm.
    pose proof (Z.mod_pos_bound BL th Hth) as Hmb.
    set (Q := BL / th) in *. set (R := BL mod th) in *. clearbody Q R.
    destruct (i <? R) eqn:E; nia.
  Qed.

  Lemma divmod_block i q : 0 <= i < th -> (q * th + i) / th = q /\ (q * th + i) mod th = i.
  Proof.
    intros Hi. assert (Hth : 0 < th) by (unfold th; lia). split.
    - symmetry. apply Z.div_unique with i; lia.
    - symmetry. apply Z.mod_unique with q; lia.
  Qed.

  Lemma lblock_spec i b : 0 <= i < th -> 0 <= b < clast i ->
    0 <= lblock i b < BL /\ lblock i b mod th = i /\ raw (lblock i b) = b.
  Proof.
    intros Hi Hb. unfold lblock, raw.
    destruct zz.
    - destruct (divmod_block i (clast i - b - 1) Hi) as [Hd Hm].
      rewrite Hd, Hm. split; [apply clast_block; lia|]. split; lia.
    - destruct (divmod_block i b Hi) as [Hd Hm].
      rewrite Hd, Hm. split; [apply clast_block; lia|]. split; lia.
  Qed.

  Lemma raw_bound lb : 0 <= lb < BL -> 0 <= lb mod th < th /\ 0 <= raw lb < clast (lb mod th) /\
                                      lblock (lb mod th) (raw lb) = lb.
  Proof.
    intros Hlb. assert (Hth : 0 < th) by (unfold th; lia).
    pose proof (Z.mod_pos_bound lb th Hth) as Hm.
    assert (Hq : 0 <= lb / th < clast (lb mod th)).
    { unfold clast.
      pose proof (Z.div_mod BL th ltac:(lia)) as Hdm.
      pose proof (Z.mod_pos_bound BL th Hth) as Hmb.
      pose proof (Z.div_mod lb th ltac:(lia)) as Hdm2.
      set (Q := BL / th) in *. set (R := BL mod th) in *.
      set (q := lb / th) in *. set (r := lb mod th) in *. clearbody Q R q r.
      destruct (r <? R) eqn:E; nia. }
    split; [exact Hm|].
    unfold raw, lblock. destruct zz.
    - split; [lia|]. replace (clast (lb mod th) - (clast (lb mod th) - lb / th - 1) - 1) with (lb / th) by lia.
      pose proof (Z.div_mod lb th ltac:(lia)) as Hdm. rewrite Z.mul_comm in Hdm. symmetry. exact Hdm.
    - split; [lia|]. pose proof (Z.div_mod lb th ltac:(lia)) as Hdm. rewrite Z.mul_comm in Hdm. symmetry. exact Hdm.
  Qed.
End Arith.

Section Inv.
  Context {V : Type} (u : ufunc V).
  Variables (n T : Z) (zz : bool).
  Hypothesis Hn : 0 <= n.
  Hypothesis HT : 0 <= T.

  Notation BL := (BL n). Notation th := (th T). Notation clast := (clast n T).
  Notation blen := (blen n). Notation raw := (raw n T zz). Notation lblock := (lblock n T zz).

  Definition holds (p : pc) (lb : Z) : Prop :=
    match p with Bump l _ => l = lb | Work l _ _ => l = lb | Finish l => l = lb | _ => False end.

  Definition cur (s : state V) (i : Z) := CurrentBlock (WorkerChannel (it s) i).

  Definition Drawn (s : state V) (lb : Z) : Prop := 0 <= lb < BL /\ raw lb < cur s (lb mod th).

  Definition static (s : state V) : Prop :=
    TotalElements (it s) = n /\ ThreadWakeup (it s) = T /\ BlockLast (it s) = BL /\
    BlockSize (it s) = CH /\ ZigZag (it s) = zz /\
    (forall i, LastBlock (WorkerChannel (it s) i) = clast i).

  Definition pc_ok (s : state V) (c : Z) (p : pc) : Prop :=
    match p with
    | Idle => c <> 0
    | Draw i st => 0 <= c <= T /\ 0 <= i <= T /\
                   (st = false -> i = c) /\
                   (st = true -> clast c <= cur s c /\ forall j, 0 <= j < i -> clast j <= cur s j)
    | Bump lb len => 0 <= c <= T /\ len = blen lb
    | Work lb len k => 0 <= c <= T /\ len = blen lb /\ 0 <= k <= len
    | Finish lb => 0 <= c <= T
    | Check => 0 <= c <= T /\ clast c <= cur s c
    | Steal i => 0 <= c <= T /\ 0 <= i /\ clast c <= cur s c /\ (forall j, 0 <= j < i -> clast j <= cur s j)
    | Wait => c = 0 /\ (forall lb, 0 <= lb < BL -> Drawn s lb)
    | Returned => c = 0 /\ (forall lb, 0 <= lb < BL -> Drawn s lb) /\ BL <= BlocksCompleted (it s)
    end.

  (** how often element e must have been written, given the thread that holds its block *)
  Definition held_count (p : pc) (lb e : Z) : Z :=
    match p with
    | Work _ _ k => if e - CH * lb <? k then 1 else 0
    | Finish _ => 1
    | _ => 0
    end.

  Record Inv (s : state V) (done bumped : list Z) : Prop := {
    I_static : static s;
    I_cur : forall i, 0 <= cur s i;
    I_pc : forall c, pc_ok s c (pcs s c);
    I_held : forall c lb, holds (pcs s c) lb -> Drawn s lb;
    I_uniq : forall c c' lb, holds (pcs s c) lb -> holds (pcs s c') lb -> c = c';
    I_done_nd : NoDup done;
    I_done_dr : forall lb, In lb done -> Drawn s lb;
    I_done_held : forall c lb, holds (pcs s c) lb -> ~ In lb done;
    I_done_len : Z.of_nat (length done) = BlocksCompleted (it s);
    I_cover : forall lb, Drawn s lb -> In lb done \/ exists c, holds (pcs s c) lb;
    I_b_nd : NoDup bumped;
    I_b_dr : forall lb, In lb bumped -> Drawn s lb;
    I_b_bump : forall c lb len, pcs s c = Bump lb len -> ~ In lb bumped;
    I_b_len : Z.of_nat (length bumped) = BlockNext (it s);
    I_log_out : forall e, ~ (0 <= e < n) -> occ e (log s) = 0;
    I_log_done : forall e, 0 <= e < n -> In (e / CH) done -> occ e (log s) = 1;
    I_log_fresh : forall e, 0 <= e < n -> ~ Drawn s (e / CH) -> occ e (log s) = 0;
    I_log_held : forall e c, 0 <= e < n -> holds (pcs s c) (e / CH) ->
                 occ e (log s) = held_count (pcs s c) (e / CH) e
  }.

  Lemma inv_start m : Inv (start n T zz m) [] [].
  Proof.
    assert (HD : forall lb, ~ Drawn (start n T zz m) lb).
    { intros lb [Hlb Hr]. destruct (raw_bound n T HT zz lb Hlb) as (_ & Hb & _).
      unfold cur in Hr; simpl in Hr. lia. }
    assert (HH : forall c lb, ~ holds (pcs (start n T zz m) c) lb).
    { intros c lb. simpl. destruct (c =? 0); simpl; tauto. }
    constructor.
    - unfold static; simpl. repeat split; reflexivity.
    - intros i. unfold cur; simpl. lia.
    - intros c. unfold pc_ok; simpl. destruct (c =? 0) eqn:E; [|lia].
      repeat split; try lia; discriminate.
    - intros c lb H. exfalso. eapply HH, H.
    - intros c c' lb H. exfalso. eapply HH, H.
    - constructor.
    - intros lb [].
    - intros c lb H. exfalso. eapply HH, H.
    - reflexivity.
    - intros lb H. exfalso. eapply HD, H.
    - constructor.
    - intros lb [].
    - intros c lb len H [].
    - reflexivity.
    - reflexivity.
    - intros e He [].
    - reflexivity.
    - intros e c _ H. exfalso. eapply HH, H.
  Qed.

  (** facts about a state obtained by changing only thread c's pc *)
  Lemma goto_it (s : state V) c p : it (goto s c p) = it s. Proof. reflexivity. Qed.

  Lemma pcs_goto (s : state V) c p c' : pcs (goto s c p) c' = if c' =? c then p else pcs s c'.
  Proof. reflexivity. Qed.

  Lemma pc_ok_mono (s s' : state V) c p :
    (forall i, cur s i <= cur s' i) -> BlocksCompleted (it s) <= BlocksCompleted (it s') ->
    pc_ok s c p -> pc_ok s' c p.
  Proof.
    intros Hc Hb H.
    assert (HD : forall lb, Drawn s lb -> Drawn s' lb).
    { intros lb [H1 H2]. split; [exact H1|]. specialize (Hc (lb mod th)). lia. }
    destruct p; simpl in *; try exact H.
    - destruct H as (H1 & H2 & H3 & H4). split; [exact H1|]. split; [exact H2|]. split; [exact H3|].
      intros Hs. destruct (H4 Hs) as [H5 H6]. split.
      + specialize (Hc c). lia.
      + intros j Hj. specialize (H6 j Hj). specialize (Hc j). lia.
    - destruct H as (H1 & H2). split; [lia|]. specialize (Hc c). lia.
    - destruct H as (H1 & H2 & H3 & H4). split; [exact H1|]. split; [exact H2|]. split.
      + specialize (Hc c). lia.
      + intros j Hj. specialize (H4 j Hj). specialize (Hc j). lia.
    - destruct H as (H1 & H2). split; [lia|]. intros lb Hlb. apply HD, H2, Hlb.
    - destruct H as (H1 & H2 & H3). split; [exact H1|]. split; [|lia]. intros lb Hlb. apply HD, H2, Hlb.
  Qed.

  (** changing the pc of c between two non-holding pcs, item/log unchanged *)
  Lemma inv_goto_nohold s done bumped c p :
    Inv s done bumped -> (forall lb, ~ holds (pcs s c) lb) -> (forall lb, ~ holds p lb) ->
    pc_ok s c p -> Inv (goto s c p) done bumped.
  Proof.
    intros I Hn1 Hn2 Hp.
    assert (HH : forall c' lb, holds (pcs (goto s c p) c') lb <-> holds (pcs s c') lb).
    { intros c' lb. rewrite pcs_goto. destruct (Z.eqb_spec c' c) as [->|_]; [|tauto].
      split; intros H; exfalso; [eapply Hn2|eapply Hn1]; exact H. }
    destruct I. constructor; try assumption.
    - intros c'. rewrite pcs_goto. destruct (Z.eqb_spec c' c) as [->|_]; [exact Hp|apply I_pc0].
    - intros c' lb H. apply HH in H. exact (I_held0 _ _ H).
    - intros c' c'' lb H H'. apply HH in H, H'. exact (I_uniq0 _ _ _ H H').
    - intros c' lb H. apply HH in H. exact (I_done_held0 _ _ H).
    - intros lb H. destruct (I_cover0 lb H) as [H'|[c' H']]; [left; exact H'|right].
      exists c'. apply HH. exact H'.
    - intros c' lb len. rewrite pcs_goto. destruct (Z.eqb_spec c' c) as [->|_].
      + intros ->. exfalso. apply (Hn2 lb). reflexivity.
      + apply I_b_bump0.
    - intros e c' He H. assert (H0 := H). apply HH in H0. simpl log. rewrite (I_log_held0 e c' He H0).
      rewrite pcs_goto in *. destruct (Z.eqb_spec c' c) as [->|_]; [|reflexivity].
      exfalso. eapply Hn1, H0.
  Qed.

  Lemma drawn_all_of_exhausted (s : state V) :
    (forall j, 0 <= j <= T -> clast j <= cur s j) -> forall lb, 0 <= lb < BL -> Drawn s lb.
  Proof.
    intros H lb Hlb. split; [exact Hlb|].
    destruct (raw_bound n T HT zz lb Hlb) as (H1 & H2 & _).
    specialize (H (lb mod th)). unfold th in *. lia.
  Qed.

  Lemma all_bumped_drawn s done bumped : Inv s done bumped -> BL <= BlockNext (it s) ->
    forall lb, 0 <= lb < BL -> Drawn s lb.
  Proof.
    intros I HB lb Hlb. apply (I_b_dr _ _ _ I).
    apply (pigeon_all bumped BL); [apply (I_b_nd _ _ _ I)| |rewrite (I_b_len _ _ _ I); exact HB|exact Hlb].
    intros x Hx. apply (I_b_dr _ _ _ I) in Hx. apply Hx.
  Qed.

  Lemma Drawn_dec s lb : Drawn s lb \/ ~ Drawn s lb.
  Proof. unfold Drawn. lia. Qed.

  Lemma step_inv c s done bumped :
    Inv s done bumped -> exists done' bumped', Inv (step u c s) done' bumped'.
  Proof.
    intros I. unfold step. destruct (pcs s c) as [|i st|lb len|lb len k|lb| |i| |] eqn:Epc.
    - (* Idle *)
      destruct ((1 <=? c) && (c <=? ThreadWakeup (it s))) eqn:E; [|eauto].
      exists done, bumped. apply inv_goto_nohold; [exact I| | |].
      + rewrite Epc. simpl. tauto.
      + simpl. tauto.
      + destruct (I_static _ _ _ I) as (_ & HTw & _). rewrite HTw in E. simpl. repeat split; try lia.
        all: intros; discriminate.
    - (* Draw *)
      pose proof (I_pc _ _ _ I c) as Hpc. rewrite Epc in Hpc. simpl in Hpc.
      destruct Hpc as (Hc & Hi & Hown & Hst).
      destruct (I_static _ _ _ I) as (S1 & S2 & S3 & S4 & S5 & S6).
      set (s' := with_item s (set_cur (it s) i (CurrentBlock (WorkerChannel (it s) i) + 1))).
      assert (Hcur : forall j, cur s' j = if j =? i then cur s i + 1 else cur s j).
      { intros j. unfold cur, s'; simpl. unfold zupd. destruct (j =? i); reflexivity. }
      assert (Hst' : static s').
      { unfold static, s'; simpl. repeat split; try assumption. intros j. unfold zupd.
        destruct (Z.eqb_spec j i) as [->|_]; simpl; apply S6. }
      assert (Hmono : forall j, cur s j <= cur s' j).
      { intros j. rewrite Hcur. destruct (Z.eqb_spec j i) as [->|_]; lia. }
      assert (HDm : forall lb, Drawn s lb -> Drawn s' lb).
      { intros lb [H1 H2]. split; [exact H1|]. specialize (Hmono (lb mod th)). lia. }
      fold (cur s i). rewrite S6.
      destruct (cur s i <? clast i) eqn:E.
      + (* success *)
        set (lb := lblock i (cur s i)).
        replace (logical_block (it s) i (cur s i)) with lb
          by (unfold lb, lblock, logical_block, cur; rewrite S2, S5, S6; reflexivity).
        replace (block_length (it s) lb) with (blen lb)
          by (unfold blen, block_length; rewrite S1, S3, S4; reflexivity).
        destruct (lblock_spec n T HT zz i (cur s i)) as (L1 & L2 & L3); [unfold th; lia| |].
        { pose proof (I_cur _ _ _ I i). lia. }
        fold lb in L1, L2, L3.
        assert (HDnew : forall lb', Drawn s' lb' <-> Drawn s lb' \/ lb' = lb).
        { intros lb'. split.
          - intros [H1 H2]. rewrite Hcur in H2. destruct (Z.eqb_spec (lb' mod th) i) as [Em|Em].
            + destruct (Z.eq_dec (raw lb') (cur s i)) as [Er|Er].
              * right. destruct (raw_bound n T HT zz lb' H1) as (_ & _ & Hl).
                rewrite Em, Er in Hl. symmetry. exact Hl.
              * left. split; [exact H1|]. rewrite Em. lia.
            + left. split; assumption.
          - intros [H| ->]; [auto|]. split; [exact L1|]. rewrite L2, Hcur, Z.eqb_refl. lia. }
        assert (Hnotdrawn : ~ Drawn s lb).
        { intros [_ H]. rewrite L2 in H. lia. }
        assert (HH : forall c' lb', holds (pcs (goto s' c (Bump lb (blen lb))) c') lb' <->
                      (c' <> c /\ holds (pcs s c') lb') \/ (c' = c /\ lb' = lb)).
        { intros c' lb'. rewrite pcs_goto. destruct (Z.eqb_spec c' c) as [->|Hne]; simpl.
          - split; intros H; [right; auto|]. destruct H as [[H _]|[_ H]]; [contradiction|auto].
          - split; intros H; [left; auto|]. destruct H as [[_ H]|[H _]]; [exact H|contradiction]. }
        exists done, bumped. destruct I. constructor; try assumption.
        * intros j. change (cur (goto s' c (Bump lb (blen lb))) j) with (cur s' j).
          specialize (Hmono j). specialize (I_cur0 j). lia.
        * intros c'. rewrite pcs_goto. destruct (Z.eqb_spec c' c) as [->|Hne].
          -- simpl. split; [lia|reflexivity].
          -- apply pc_ok_mono with s; [exact Hmono|simpl; lia|apply I_pc0].
        * intros c' lb' H. apply HH in H. apply HDnew.
          destruct H as [[_ H]|[_ ->]]; [left; exact (I_held0 _ _ H)|right; reflexivity].
        * intros c1 c2 lb' H1 H2. apply HH in H1, H2.
          destruct H1 as [[N1 H1]|[N1 H1]], H2 as [[N2 H2]|[N2 H2]].
          -- exact (I_uniq0 _ _ _ H1 H2).
          -- subst lb'. exfalso. apply Hnotdrawn. exact (I_held0 _ _ H1).
          -- subst lb'. exfalso. apply Hnotdrawn. exact (I_held0 _ _ H2).
          -- congruence.
        * intros lb' H. apply HDnew. left. auto.
        * intros c' lb' H. apply HH in H. destruct H as [[_ H]|[_ ->]]; [exact (I_done_held0 _ _ H)|].
          intros Hin. apply Hnotdrawn. auto.
        * intros lb' H. apply HDnew in H. destruct H as [H| ->].
          -- destruct (I_cover0 lb' H) as [H'|[c' H']]; [left; exact H'|right]. exists c'. apply HH.
             destruct (Z.eq_dec c' c) as [->|Hne]; [rewrite Epc in H'; destruct H'|left; auto].
          -- right. exists c. apply HH. right. auto.
        * intros lb' H. apply HDnew. left. auto.
        * intros c' lb' len. rewrite pcs_goto. destruct (Z.eqb_spec c' c) as [->|Hne].
          -- intros [= <- _] Hin. apply Hnotdrawn. auto.
          -- apply I_b_bump0.
        * intros e He Hnd. simpl log. apply I_log_fresh0; [exact He|]. intros H. apply Hnd, HDnew. left. exact H.
        * intros e c' He H. simpl log. rewrite pcs_goto.
          apply HH in H. destruct (Z.eqb_spec c' c) as [->|Hne].
          -- destruct H as [[H _]|[_ H]]; [contradiction|]. simpl. apply I_log_fresh0; [exact He|].
             rewrite H. exact Hnotdrawn.
          -- destruct H as [[_ H]|[H _]]; [|contradiction]. apply I_log_held0; assumption.
      + (* channel exhausted *)
        assert (HDsame : forall lb', Drawn s' lb' <-> Drawn s lb').
        { intros lb'. split; [|auto]. intros [H1 H2]. split; [exact H1|]. rewrite Hcur in H2.
          destruct (Z.eqb_spec (lb' mod th) i) as [Em|Em]; [|exact H2].
          destruct (raw_bound n T HT zz lb' H1) as (_ & Hr & _). rewrite Em in *. lia. }
        exists done, bumped.
        assert (I' : Inv s' done bumped).
        { destruct I. constructor; try assumption.
          - intros j. specialize (Hmono j). specialize (I_cur0 j). lia.
          - intros c'. apply pc_ok_mono with s; [exact Hmono|simpl; lia|apply I_pc0].
          - intros c' lb' H. apply HDsame. exact (I_held0 _ _ H).
          - intros lb' H. apply HDsame. auto.
          - intros lb' H. apply HDsame in H. auto.
          - intros lb' H. apply HDsame. auto.
          - intros e He H. apply I_log_fresh0; [exact He|]. intros H'. apply H, HDsame, H'. }
        apply inv_goto_nohold; [exact I'| | |].
        * simpl. rewrite Epc. simpl. tauto.
        * destruct st; simpl; tauto.
        * destruct st; simpl.
          -- destruct (Hst eq_refl) as [H1 H2]. pose proof (Hmono c) as Hmc. repeat split; try lia.
             intros j Hj. pose proof (Hmono j). destruct (Z.eq_dec j i) as [->|Hne].
             ++ rewrite Hcur, Z.eqb_refl. lia.
             ++ specialize (H2 j ltac:(lia)). lia.
          -- specialize (Hown eq_refl). subst i. split; [lia|]. rewrite Hcur, Z.eqb_refl. lia.
    - (* Bump *)
      pose proof (I_pc _ _ _ I c) as Hpc. rewrite Epc in Hpc. simpl in Hpc. destruct Hpc as (Hc & Hlen).
      exists done, (lb :: bumped).
      assert (Hheld : holds (pcs s c) lb) by (rewrite Epc; reflexivity).
      pose proof (I_held _ _ _ I _ _ Hheld) as Hdr.
      assert (Hbp := blen_pos n lb (proj1 Hdr)).
      assert (Hnb : ~ In lb bumped) by (eapply (I_b_bump _ _ _ I); exact Epc).
      match goal with |- Inv ?X _ _ => set (s' := X) end.
      assert (HH : forall c' lb', holds (pcs s' c') lb' <-> holds (pcs s c') lb').
      { intros c' lb'. unfold s'. rewrite pcs_goto. destruct (Z.eqb_spec c' c) as [->|Hne]; [|tauto].
        rewrite Epc. simpl. tauto. }
      destruct I. constructor; try assumption.
      + intros c'. unfold s'. rewrite pcs_goto. destruct (Z.eqb_spec c' c) as [->|Hne].
        * simpl. repeat split; try lia. 
        * apply pc_ok_mono with s; [intros j; unfold cur; simpl; lia|simpl; lia|apply I_pc0].
      + intros c' lb' H. apply HH in H. exact (I_held0 _ _ H).
      + intros c1 c2 lb' H1 H2. apply HH in H1, H2. exact (I_uniq0 _ _ _ H1 H2).
      + intros c' lb' H. apply HH in H. exact (I_done_held0 _ _ H).
      + intros lb' H. destruct (I_cover0 lb' H) as [H'|[c' H']]; [left; exact H'|right].
        exists c'. apply HH. exact H'.
      + constructor; assumption.
      + intros lb' [<-|H]; [exact Hdr|]. apply I_b_dr0. exact H.
      + intros c' lb' len'. unfold s'. rewrite pcs_goto. destruct (Z.eqb_spec c' c) as [->|Hne].
        * discriminate.
        * change (pcs s c' = Bump lb' len' -> ~ In lb' (lb :: bumped)).
          intros H [<-|Hin]; [|exact (I_b_bump0 _ _ _ H Hin)].
          apply Hne. apply (I_uniq0 c' c lb); [rewrite H; reflexivity|exact Hheld].
      + change (BlockNext (it s')) with (BlockNext (it s) + 1). cbn [length]. lia.
      + intros e c' He H. apply HH in H. unfold s'. simpl log. rewrite (I_log_held0 e c' He H).
        rewrite pcs_goto. destruct (Z.eqb_spec c' c) as [->|Hne]; [|reflexivity].
        rewrite Epc in *. simpl in H |- *. subst lb.
        pose proof (blen_elems n (e / CH) e (proj1 Hdr)) as He2.
        destruct (e - CH * (e / CH) <? 0) eqn:E; [|reflexivity]. rewrite CH_val in *. lia.
    - (* Work *)
      pose proof (I_pc _ _ _ I c) as Hpc. rewrite Epc in Hpc. simpl in Hpc. destruct Hpc as (Hc & Hlen & Hk).
      assert (Hheld : holds (pcs s c) lb) by (rewrite Epc; reflexivity).
      pose proof (I_held _ _ _ I _ _ Hheld) as Hdr.
      pose proof (I_done_held _ _ _ I _ _ Hheld) as Hnd.
      exists done, bumped.
      destruct (I_static _ _ _ I) as (S1 & S2 & S3 & S4 & S5 & S6).
      assert (Hpos : forall e, 0 <= e < n -> e / CH = lb -> 0 <= e - CH * lb < blen lb).
      { intros e He Hq. pose proof (blen_elems n lb e (proj1 Hdr)). lia. }
      destruct (k <? len) eqn:E.
      + (* one element *)
        set (e0 := CH * lb + k).
        assert (He0 : 0 <= e0 < n /\ e0 / CH = lb)
          by (apply (blen_elems n lb e0 (proj1 Hdr)); unfold e0; lia).
        set (s' := goto (do_element u s lb k) c (Work lb len (k + 1))).
        assert (Hlog : log s' = log s ++ [e0]).
        { unfold s', do_element; simpl. rewrite S4. reflexivity. }
        assert (HH : forall c' lb', holds (pcs s' c') lb' <-> holds (pcs s c') lb').
        { intros c' lb'. unfold s'. rewrite pcs_goto. destruct (Z.eqb_spec c' c) as [->|Hne]; [|tauto].
          rewrite Epc. simpl. tauto. }
        destruct I. constructor; try assumption.
        * intros c'. unfold s'. rewrite pcs_goto. destruct (Z.eqb_spec c' c) as [->|Hne].
          -- simpl. repeat split; try assumption; lia.
          -- apply pc_ok_mono with s; [intros j; unfold cur; simpl; lia|simpl; lia|apply I_pc0].
        * intros c' lb' H. apply HH in H. exact (I_held0 _ _ H).
        * intros c1 c2 lb' H1 H2. apply HH in H1, H2. exact (I_uniq0 _ _ _ H1 H2).
        * intros c' lb' H. apply HH in H. exact (I_done_held0 _ _ H).
        * intros lb' H. destruct (I_cover0 lb' H) as [H'|[c' H']]; [left; exact H'|right].
          exists c'. apply HH. exact H'.
        * intros c' lb' len'. unfold s'. rewrite pcs_goto. destruct (Z.eqb_spec c' c) as [->|Hne]; [discriminate|].
          apply I_b_bump0.
        * intros e He. rewrite Hlog, occ_app, occ_cons, occ_nil, I_log_out0 by assumption.
          destruct (Z.eqb_spec e0 e) as [Ee|_]; [|lia]. exfalso. lia.
        * intros e He Hin. rewrite Hlog, occ_app, occ_cons, occ_nil, I_log_done0 by assumption.
          destruct (Z.eqb_spec e0 e) as [Ee|_]; [|lia]. exfalso. apply Hnd. rewrite <- Ee in Hin.
          destruct He0 as [_ Hq]. rewrite Hq in Hin. exact Hin.
        * intros e He Hin. rewrite Hlog, occ_app, occ_cons, occ_nil, I_log_fresh0 by assumption.
          destruct (Z.eqb_spec e0 e) as [Ee|_]; [|lia]. exfalso. apply Hin. rewrite <- Ee.
          destruct He0 as [_ Hq]. rewrite Hq. exact Hdr.
        * intros e c' He H. apply HH in H. rewrite Hlog, occ_app, occ_cons, occ_nil.
          rewrite (I_log_held0 e c' He H). unfold s'. rewrite pcs_goto.
          destruct (Z.eqb_spec c' c) as [->|Hne].
          -- rewrite Epc in *. simpl in H |- *. unfold e0 in *. subst lb.
             destruct (Z.eqb_spec (CH * (e / CH) + k) e) as [Ee|Ee].
             ++ destruct (e - CH * (e / CH) <? k) eqn:E1; destruct (e - CH * (e / CH) <? k + 1) eqn:E2; lia.
             ++ destruct (e - CH * (e / CH) <? k) eqn:E1; destruct (e - CH * (e / CH) <? k + 1) eqn:E2; lia.
          -- change (pcs (do_element u s lb k) c') with (pcs s c').
             destruct (Z.eqb_spec e0 e) as [Ee|Ee]; [|lia].
             exfalso. apply Hne. apply (I_uniq0 c' c lb); [|exact Hheld].
             destruct He0 as [_ Hq]. rewrite Ee in Hq. rewrite <- Hq. exact H.
      + (* block finished *)
        assert (Hkl : k = len) by lia.
        set (s' := goto s c (Finish lb)).
        assert (HH : forall c' lb', holds (pcs s' c') lb' <-> holds (pcs s c') lb').
        { intros c' lb'. unfold s'. rewrite pcs_goto. destruct (Z.eqb_spec c' c) as [->|Hne]; [|tauto].
          rewrite Epc. simpl. tauto. }
        destruct I. constructor; try assumption.
        * intros c'. unfold s'. rewrite pcs_goto. destruct (Z.eqb_spec c' c) as [->|Hne]; [exact Hc|apply I_pc0].
        * intros c' lb' H. apply HH in H. exact (I_held0 _ _ H).
        * intros c1 c2 lb' H1 H2. apply HH in H1, H2. exact (I_uniq0 _ _ _ H1 H2).
        * intros c' lb' H. apply HH in H. exact (I_done_held0 _ _ H).
        * intros lb' H. destruct (I_cover0 lb' H) as [H'|[c' H']]; [left; exact H'|right].
          exists c'. apply HH. exact H'.
        * intros c' lb' len'. unfold s'. rewrite pcs_goto. destruct (Z.eqb_spec c' c) as [->|Hne]; [discriminate|].
          apply I_b_bump0.
        * intros e c' He H. apply HH in H. unfold s'. simpl log. rewrite (I_log_held0 e c' He H).
          rewrite pcs_goto. destruct (Z.eqb_spec c' c) as [->|Hne]; [|reflexivity].
          rewrite Epc in *. simpl in H |- *. specialize (Hpos e He (eq_sym H)). subst lb.
          destruct (e - CH * (e / CH) <? k) eqn:E1; [reflexivity|]. lia.
    - (* Finish *)
      pose proof (I_pc _ _ _ I c) as Hpc. rewrite Epc in Hpc. simpl in Hpc.
      assert (Hheld : holds (pcs s c) lb) by (rewrite Epc; reflexivity).
      pose proof (I_held _ _ _ I _ _ Hheld) as Hdr.
      pose proof (I_done_held _ _ _ I _ _ Hheld) as Hnd.
      exists (lb :: done), bumped.
      match goal with |- Inv ?X _ _ => set (s' := X) end.
      assert (HH : forall c' lb', holds (pcs s' c') lb' <-> c' <> c /\ holds (pcs s c') lb').
      { intros c' lb'. unfold s'. rewrite pcs_goto. destruct (Z.eqb_spec c' c) as [->|Hne]; simpl; tauto. }
      destruct I. constructor; try assumption.
      + intros c'. unfold s'. rewrite pcs_goto. destruct (Z.eqb_spec c' c) as [->|Hne].
        * simpl. repeat split; try lia. all: intros; discriminate.
        * apply pc_ok_mono with s; [intros j; unfold cur; simpl; lia|simpl; lia|apply I_pc0].
      + intros c' lb' H. apply HH in H. exact (I_held0 _ _ (proj2 H)).
      + intros c1 c2 lb' H1 H2. apply HH in H1, H2. exact (I_uniq0 _ _ _ (proj2 H1) (proj2 H2)).
      + constructor; assumption.
      + intros lb' [<-|H]; [exact Hdr|]. apply I_done_dr0, H.
      + intros c' lb' H [<-|Hin].
        * apply HH in H. apply (proj1 H). exact (I_uniq0 _ _ _ (proj2 H) Hheld).
        * apply HH in H. exact (I_done_held0 _ _ (proj2 H) Hin).
      + change (BlocksCompleted (it s')) with (BlocksCompleted (it s) + 1). simpl length. lia.
      + intros lb' H. destruct (I_cover0 lb' H) as [H'|[c' H']]; [left; right; exact H'|].
        destruct (Z.eq_dec c' c) as [->|Hne].
        * rewrite Epc in H'. simpl in H'. left. left. exact H'.
        * right. exists c'. apply HH. auto.
      + intros c' lb' len'. unfold s'. rewrite pcs_goto. destruct (Z.eqb_spec c' c) as [->|Hne]; [discriminate|].
        apply I_b_bump0.
      + intros e He [Heq|Hin]; [|exact (I_log_done0 e He Hin)].
        change (log s') with (log s). rewrite (I_log_held0 e c He).
        * rewrite Epc. reflexivity.
        * rewrite <- Heq. exact Hheld.
      + intros e c' He H. apply HH in H. change (log s') with (log s). rewrite (I_log_held0 e c' He (proj2 H)).
        unfold s'. rewrite pcs_goto. destruct (Z.eqb_spec c' c) as [->|Hne]; [tauto|reflexivity].
    - (* Check *)
      pose proof (I_pc _ _ _ I c) as Hpc. rewrite Epc in Hpc. simpl in Hpc.
      destruct (I_static _ _ _ I) as (S1 & S2 & S3 & S4 & S5 & S6). rewrite S3.
      exists done, bumped. destruct (BL <=? BlockNext (it s)) eqn:E.
      + apply inv_goto_nohold; [exact I|rewrite Epc; simpl; tauto| |].
        * unfold stop. destruct (c =? 0); simpl; tauto.
        * unfold stop. destruct (c =? 0) eqn:E0; simpl; [|lia]. split; [lia|].
          apply (all_bumped_drawn s done bumped I). lia.
      + apply inv_goto_nohold; [exact I|rewrite Epc; simpl; tauto|simpl; tauto|].
        simpl. repeat split; try lia. 
    - (* Steal *)
      pose proof (I_pc _ _ _ I c) as Hpc. rewrite Epc in Hpc. simpl in Hpc.
      destruct Hpc as (Hc & Hi & Ho & Hex).
      destruct (I_static _ _ _ I) as (S1 & S2 & S3 & S4 & S5 & S6). rewrite S2.
      exists done, bumped. destruct (i <=? T) eqn:E.
      + destruct (Z.eqb_spec i c) as [->|Hne].
        * apply inv_goto_nohold; [exact I|rewrite Epc; simpl; tauto|simpl; tauto|].
          simpl. repeat split; try lia.
          intros j Hj. destruct (Z.eq_dec j c) as [->|Hn']; [lia|]. apply Hex. lia.
        * apply inv_goto_nohold; [exact I|rewrite Epc; simpl; tauto|simpl; tauto|].
          simpl. split; [lia|]. split; [lia|]. split; [intros; discriminate|]. intros _; split; assumption.
      + apply inv_goto_nohold; [exact I|rewrite Epc; simpl; tauto| |].
        * unfold stop. destruct (c =? 0); simpl; tauto.
        * unfold stop. destruct (c =? 0) eqn:E0; simpl; [|lia]. split; [lia|].
          apply drawn_all_of_exhausted. intros j Hj. apply Hex. lia.
    - (* Wait *)
      pose proof (I_pc _ _ _ I c) as Hpc. rewrite Epc in Hpc. simpl in Hpc.
      destruct (I_static _ _ _ I) as (S1 & S2 & S3 & S4 & S5 & S6). rewrite S3.
      exists done, bumped. destruct (BlocksCompleted (it s) <? BL) eqn:E; [exact I|].
      apply inv_goto_nohold; [exact I|rewrite Epc; simpl; tauto|simpl; tauto|].
      simpl. destruct Hpc as [H1 H2]. repeat split; try lia; apply H2; assumption.
    - exists done, bumped. exact I.
  Qed.

  Lemma run_inv sched s done bumped :
    Inv s done bumped -> exists done' bumped', Inv (run u s sched) done' bumped'.
  Proof.
    revert s done bumped. induction sched as [|c sched IH]; intros s done bumped I; simpl.
    - eauto.
    - destruct (step_inv c s done bumped I) as (d' & b' & I'). eapply IH, I'.
  Qed.

  Lemma reach_inv m sched : exists done bumped, Inv (run u (start n T zz m) sched) done bumped.
  Proof. eapply run_inv, inv_start. Qed.

  (** ---- consequences ---- *)

  Lemma inv_log_le1 s done bumped e : Inv s done bumped -> occ e (log s) <= 1.
  Proof.
    intros I. destruct (Z_lt_dec e 0) as [H|H]; [rewrite (I_log_out _ _ _ I); lia|].
    destruct (Z_lt_dec e n) as [H'|H']; [|rewrite (I_log_out _ _ _ I); lia].
    assert (He : 0 <= e < n) by lia.
    destruct (Drawn_dec s (e / CH)) as [Hd|Hd].
    - destruct (I_cover _ _ _ I _ Hd) as [Hin|[c Hh]].
      + rewrite (I_log_done _ _ _ I e He Hin). lia.
      + rewrite (I_log_held _ _ _ I e c He Hh). unfold held_count.
        destruct (pcs s c); try lia. destruct (e - CH * (e / CH) <? k); lia.
    - rewrite (I_log_fresh _ _ _ I e He Hd). lia.
  Qed.

  Lemma inv_returned_all_done s done bumped c :
    Inv s done bumped -> pcs s c = Returned -> forall lb, 0 <= lb < BL -> In lb done.
  Proof.
    intros I Hr. pose proof (I_pc _ _ _ I c) as Hpc. rewrite Hr in Hpc. simpl in Hpc.
    apply (pigeon_all done BL); [apply (I_done_nd _ _ _ I)| |].
    - intros x Hx. apply (I_done_dr _ _ _ I) in Hx. apply Hx.
    - rewrite (I_done_len _ _ _ I). lia.
  Qed.

  Lemma inv_returned_log s done bumped c e :
    Inv s done bumped -> pcs s c = Returned ->
    occ e (log s) = if (0 <=? e) && (e <? n) then 1 else 0.
  Proof.
    intros I Hr. destruct ((0 <=? e) && (e <? n)) eqn:E.
    - apply (I_log_done _ _ _ I); [lia|]. eapply inv_returned_all_done; [exact I|exact Hr|].
      apply block_of_elem; lia.
    - apply (I_log_out _ _ _ I). lia.
  Qed.

  Lemma inv_returned_no_holder s done bumped c :
    Inv s done bumped -> pcs s c = Returned -> forall c' lb, ~ holds (pcs s c') lb.
  Proof.
    intros I Hr c' lb Hh. apply (I_done_held _ _ _ I _ _ Hh).
    eapply inv_returned_all_done; [exact I|exact Hr|]. apply (I_held _ _ _ I _ _ Hh).
  Qed.

  (** ---- memory is determined by the log ---- *)
  Definition write_elem (m : Z -> V) (e : Z) : Z -> V :=
    zupd m (pDataOut u + e * itemSizeOut u)
         (fop u (m (pDataIn1 u + e * itemSizeIn1 u)) (m (pDataIn2 u + e * itemSizeIn2 u))).

  Lemma step_log_mem c s : exists l, log (step u c s) = log s ++ l /\
    mem (step u c s) = fold_left write_elem l (mem s).
  Proof.
    unfold step. destruct (pcs s c) as [|i st|lb len|lb len k|lb| |i| |].
    all: try (match goal with |- context [if ?b then _ else _] => destruct b end).
    all: try (match goal with |- context [if ?b then _ else _] => destruct b end).
    all: try (exists []; rewrite app_nil_r; split; reflexivity).
    exists [BlockSize (it s) * lb + k]. split; [reflexivity|].
    simpl. unfold write_elem. f_equal; [|f_equal; f_equal]; ring.
  Qed.

  Lemma run_log_mem sched s : exists l, log (run u s sched) = log s ++ l /\
    mem (run u s sched) = fold_left write_elem l (mem s).
  Proof.
    revert s. induction sched as [|c sched IH]; intros s; simpl.
    - exists []. rewrite app_nil_r. auto.
    - destruct (step_log_mem c s) as (l1 & H1 & H2). destruct (IH (step u c s)) as (l2 & H3 & H4).
      exists (l1 ++ l2). split.
      + fold (run u (step u c s) sched). rewrite H3, H1, app_assoc. reflexivity.
      + fold (run u (step u c s) sched). rewrite H4, H2, fold_left_app. reflexivity.
  Qed.

  Lemma step_returned c s c' : pcs s c = Returned -> pcs (step u c' s) c = Returned.
  Proof.
    intros H. unfold step. destruct (Z.eq_dec c' c) as [->|Hne].
    - rewrite H. exact H.
    - destruct (pcs s c') as [|i st|lb len|lb len k|lb| |i| |].
      all: try (match goal with |- context [if ?b then _ else _] => destruct b end).
      all: try (match goal with |- context [if ?b then _ else _] => destruct b end).
      all: try exact H.
      all: rewrite pcs_goto; destruct (Z.eqb_spec c c') as [->|_]; [contradiction|exact H].
  Qed.

  Lemma run_returned sched s c : pcs s c = Returned -> pcs (run u s sched) c = Returned.
  Proof.
    revert s. induction sched as [|c' sched IH]; intros s H; simpl; [exact H|].
    apply IH, step_returned, H.
  Qed.

  Lemma after_return_stable m sched sched' :
    let s := run u (start n T zz m) sched in
    pcs s 0 = Returned ->
    log (run u s sched') = log s /\ mem (run u s sched') = mem s.
  Proof.
    intros s Hr. destruct (run_log_mem sched' s) as (l & Hl & Hm).
    assert (l = []) as ->.
    { destruct l as [|e l]; [reflexivity|exfalso].
      destruct (reach_inv m sched) as (d & b & I). fold s in I.
      destruct (run_inv sched' s d b I) as (d' & b' & I').
      pose proof (inv_returned_log s d b 0 e I Hr) as O1.
      pose proof (inv_returned_log _ d' b' 0 e I' (run_returned sched' s 0 Hr)) as O2.
      rewrite Hl, occ_app, O1, occ_cons, Z.eqb_refl in O2. pose proof (occ_nonneg e l). lia. }
    rewrite app_nil_r in Hl. auto.
  Qed.
End Inv.

(** ---- element writes in any order without repetition ---- *)
Section Elem.
  Context {V : Type} (u : ufunc V) (n : Z).
  Definition aO e := pDataOut u + e * itemSizeOut u.
  Definition a1 e := pDataIn1 u + e * itemSizeIn1 u.
  Definition a2 e := pDataIn2 u + e * itemSizeIn2 u.
  Definition no_interference : Prop :=
    forall e e', 0 <= e < n -> 0 <= e' < n -> e <> e' ->
      aO e <> aO e' /\ aO e <> a1 e' /\ aO e <> a2 e'.

  Lemma fold_write l m : no_interference -> NoDup l -> (forall e, In e l -> 0 <= e < n) ->
    (forall e, In e l -> fold_left (write_elem u) l m (aO e) = fop u (m (a1 e)) (m (a2 e))) /\
    (forall a, (forall e, In e l -> a <> aO e) -> fold_left (write_elem u) l m a = m a).
  Proof.
    intros Hni. revert m. induction l as [|e0 l IH]; intros m Hnd Hin.
    - split; [intros e []|reflexivity].
    - simpl fold_left. inversion_clear Hnd as [|? ? Hn0 Hnd'].
      assert (Hin' : forall e, In e l -> 0 <= e < n) by (intros; apply Hin; right; assumption).
      destruct (IH (write_elem u m e0) Hnd' Hin') as [IH1 IH2].
      assert (Hfr : forall a, a <> aO e0 -> write_elem u m e0 a = m a).
      { intros a Ha. unfold write_elem. apply zupd_neq. exact Ha. }
      split.
      + intros e [->|He].
        * rewrite IH2.
          -- unfold write_elem. fold (aO e). apply zupd_eq.
          -- intros e' He' Heq. assert (e <> e') by congruence.
             destruct (Hni e e' (Hin e (or_introl eq_refl)) (Hin' e' He') H) as [H1 _]. contradiction.
        * rewrite IH1 by exact He.
          assert (e0 <> e) by congruence.
          destruct (Hni e0 e (Hin e0 (or_introl eq_refl)) (Hin' e He) H) as (H1 & H2 & H3).
          rewrite !Hfr by congruence. reflexivity.
      + intros a Ha. rewrite IH2 by (intros e He; apply Ha; right; exact He).
        apply Hfr. apply Ha. left. reflexivity.
  Qed.
End Elem.

Lemma NoDup_of_occ l : (forall e, occ e l <= 1) -> NoDup l.
Proof.
  intros H. apply (NoDup_count_occ Z.eq_dec). intros x. specialize (H x). unfold occ in H. lia.
Qed.
