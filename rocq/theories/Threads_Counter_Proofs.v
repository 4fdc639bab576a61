(** Threads_Counter_Proofs.v - invariants of the shared-counter machine (chunk and index callbacks). *)
From Verif Require Import Base Threads_Model Threads_Proofs.

Section Counter.
  Variables (md : mode) (n T : Z) (zz : bool).
  Hypothesis Hn : 0 <= n.
  Hypothesis HT : 0 <= T.

  Definition w0 : Z := match md with ChunkMode => 0 | IndexMode => 1 end.
  Definition tgt : Z := match md with ChunkMode => BL n | IndexMode => n end.
  Definition piece (w : Z) : Z * Z :=
    match md with ChunkMode => (CH * w, blen n w) | IndexMode => (w - 1, 1) end.
  Definition valid (w : Z) : Prop := w0 <= w < w0 + tgt.

  Definition cstatic (i : item) : Prop :=
    TotalElements i = n /\ ThreadWakeup i = T /\
    BlockLast i = (match md with ChunkMode => BL n | IndexMode => n + 1 end) /\
    BlockSize i = (match md with ChunkMode => CH | IndexMode => 1 end).

  Lemma take_valid i w : cstatic i -> 0 <= w -> valid w -> take md i w = Some (piece w).
  Proof.
    intros (S1 & S2 & S3 & S4) Hw Hv. unfold valid, w0, tgt, take, piece in *. destruct md.
    - rewrite S3, S4. destruct (Z.ltb_spec w (BL n)); [|lia].
      unfold block_length, blen. rewrite S1, S3, S4. reflexivity.
    - rewrite S3. destruct (Z.ltb_spec w (n + 1)); [|lia].
      destruct (Z.ltb_spec 0 w); [reflexivity|lia].
  Qed.

  Lemma take_invalid i w : cstatic i -> 0 <= w -> ~ valid w -> take md i w = None.
  Proof.
    intros (S1 & S2 & S3 & S4) Hw Hv. unfold valid, w0, tgt, take, piece in *. destruct md.
    - rewrite S3. destruct (Z.ltb_spec w (BL n)); [lia|reflexivity].
    - rewrite S3. destruct (Z.ltb_spec w (n + 1)).
      + destruct (Z.ltb_spec 0 w); [lia|reflexivity].
      + reflexivity.
  Qed.

  Lemma target_tgt i : cstatic i -> target md i = tgt.
  Proof. intros (S1 & S2 & S3 & S4). unfold target, tgt. destruct md; assumption. Qed.

  Definition cholds (p : cpc) (w : Z) : Prop :=
    match p with CWork _ _ w' => w' = w | CFinish w' => w' = w | _ => False end.

  Definition CDrawn (s : cstate) (w : Z) : Prop := valid w /\ w < BlockNext (cit s).

  Definition validb (w : Z) : bool := (w0 <=? w) && (w <? w0 + tgt).

  Definition cpc_ok (s : cstate) (c : Z) (p : cpc) : Prop :=
    match p with
    | CIdle => c <> 0
    | CDraw => 0 <= c <= T
    | CWork st len w => 0 <= c <= T /\ (st, len) = piece w
    | CFinish w => 0 <= c <= T
    | CWait => c = 0
    | CReturned => c = 0 /\ tgt <= BlocksCompleted (cit s)
    end.

  Record CInv (s : cstate) (done fin : list Z) : Prop := {
    CI_static : cstatic (cit s);
    CI_next : 0 <= BlockNext (cit s);
    CI_pc : forall c, cpc_ok s c (cpcs s c);
    CI_held : forall c w, cholds (cpcs s c) w -> CDrawn s w;
    CI_uniq : forall c c' w, cholds (cpcs s c) w -> cholds (cpcs s c') w -> c = c';
    CI_done_nd : NoDup done;
    CI_done_dr : forall w, In w done -> CDrawn s w;
    CI_done_held : forall c w, cholds (cpcs s c) w -> ~ In w done;
    CI_done_len : Z.of_nat (length done) = BlocksCompleted (cit s);
    CI_fin : fins s = map piece fin;
    CI_fin_nd : NoDup fin;
    CI_fin_dr : forall w, In w fin -> CDrawn s w;
    CI_fin_work : forall c st len w, cpcs s c = CWork st len w -> ~ In w fin;
    CI_fin_fin : forall c w, cpcs s c = CFinish w -> In w fin;
    CI_fin_done : incl done fin;
    CI_calls : calls s = map piece (filter validb (zrange 0 (BlockNext (cit s))));
    CI_cov : forall w, CDrawn s w -> In w done \/ exists c, cholds (cpcs s c) w
  }.

  Lemma cinv_start : CInv (cstart md n T zz) [] [].
  Proof.
    assert (HH : forall c w, ~ cholds (cpcs (cstart md n T zz) c) w).
    { intros c w. simpl. destruct (c =? 0); simpl; tauto. }
    constructor.
    - unfold cstatic, cstart. destruct md; simpl; repeat split; reflexivity.
    - unfold cstart. destruct md; simpl; lia.
    - intros c. simpl. destruct (c =? 0) eqn:E; simpl; lia.
    - intros c w H. exfalso. eapply HH, H.
    - intros c c' w H. exfalso. eapply HH, H.
    - constructor.
    - intros w [].
    - intros c w H. exfalso. eapply HH, H.
    - unfold cstart. destruct md; reflexivity.
    - reflexivity.
    - constructor.
    - intros w [].
    - intros c st len w H []. 
    - intros c w H. exfalso. apply (HH c w). rewrite H. reflexivity.
    - intros w [].
    - unfold cstart. destruct md; reflexivity.
    - intros w [Hv Hw]. unfold valid, w0, cstart in *. destruct md; simpl in Hw; lia.
  Qed.

  Lemma cpcs_goto (s : cstate) c p c' : cpcs (cgoto s c p) c' = if c' =? c then p else cpcs s c'.
  Proof. reflexivity. Qed.

  Lemma valid_dec w : valid w \/ ~ valid w. Proof. unfold valid. lia. Qed.

  (** a step that only moves c between pcs that hold nothing *)
  Lemma cinv_goto_nohold s done fin c p : CInv s done fin ->
    (forall w, ~ cholds (cpcs s c) w) -> (forall w, ~ cholds p w) -> cpc_ok s c p ->
    CInv (cgoto s c p) done fin.
  Proof.
    intros I H1 H2 Hp.
    assert (HH : forall c' w, cholds (cpcs (cgoto s c p) c') w <-> cholds (cpcs s c') w).
    { intros c' w. rewrite cpcs_goto. destruct (Z.eqb_spec c' c) as [->|_]; [|tauto].
      split; intros H; exfalso; [eapply H2|eapply H1]; exact H. }
    destruct I. constructor; try assumption.
    - intros c'. rewrite cpcs_goto. destruct (Z.eqb_spec c' c) as [->|_]; [exact Hp|apply CI_pc0].
    - intros c' w H. apply HH in H. exact (CI_held0 _ _ H).
    - intros c' c'' w H H'. apply HH in H, H'. exact (CI_uniq0 _ _ _ H H').
    - intros c' w H. apply HH in H. exact (CI_done_held0 _ _ H).
    - intros c' st len w. rewrite cpcs_goto. destruct (Z.eqb_spec c' c) as [->|_].
      + intros ->. exfalso. apply (H2 w). reflexivity.
      + apply CI_fin_work0.
    - intros c' w. rewrite cpcs_goto. destruct (Z.eqb_spec c' c) as [->|_].
      + intros ->. exfalso. apply (H2 w). reflexivity.
      + apply CI_fin_fin0.
    - intros w H. destruct (CI_cov0 w H) as [H'|(c' & H')]; [left; exact H'|right].
      exists c'. apply HH. exact H'.
  Qed.

  Lemma cstep_inv c s done fin : CInv s done fin -> exists done' fin', CInv (cstep md c s) done' fin'.
  Proof.
    intros I. unfold cstep. destruct (cpcs s c) as [| |st len w|w| |] eqn:Epc.
    - destruct ((1 <=? c) && (c <=? ThreadWakeup (cit s))) eqn:E; [|eauto].
      exists done, fin. apply cinv_goto_nohold; [exact I|rewrite Epc; simpl; tauto|simpl; tauto|].
      destruct (CI_static _ _ _ I) as (_ & S2 & _). simpl. lia.
    - (* draw *)
      pose proof (CI_pc _ _ _ I c) as Hpc. rewrite Epc in Hpc. simpl in Hpc.
      set (w := BlockNext (cit s)). pose proof (CI_next _ _ _ I) as Hw. fold w in Hw.
      pose proof (CI_static _ _ _ I) as HS.
      assert (Hr : zrange 0 (w + 1) = zrange 0 w ++ [w]) by (apply zrange_snoc; lia).
      destruct (valid_dec w) as [Hv|Hv].
      + rewrite (take_valid _ w HS Hw Hv). destruct (piece w) as [st len] eqn:Ep.
        match goal with |- exists d f, CInv ?X d f => set (s' := X) end.
        assert (Hvb : validb w = true) by (unfold validb, valid in *; lia).
        assert (HDm : forall x, CDrawn s' x <-> CDrawn s x \/ x = w).
        { intros x. unfold CDrawn. change (BlockNext (cit s')) with (w + 1). fold w. split.
          - intros [H1 H2]. destruct (Z.eq_dec x w); [right; assumption|left; split; [assumption|lia]].
          - intros [[H1 H2]| ->]; (split; [assumption|lia]). }
        assert (Hnd : ~ CDrawn s w) by (unfold CDrawn; fold w; lia).
        assert (HH : forall c' x, cholds (cpcs s' c') x <-> (c' <> c /\ cholds (cpcs s c') x) \/ (c' = c /\ x = w)).
        { intros c' x. unfold s'. rewrite cpcs_goto. destruct (Z.eqb_spec c' c) as [->|Hne]; simpl.
          - split; intros H; [right; auto|]. destruct H as [[H _]|[_ H]]; [contradiction|auto].
          - split; intros H; [left; auto|]. destruct H as [[_ H]|[H _]]; [exact H|contradiction]. }
        exists done, fin. destruct I. constructor; try assumption.
        * change (BlockNext (cit s')) with (w + 1). lia.
        * intros c'. unfold s'. rewrite cpcs_goto. destruct (Z.eqb_spec c' c) as [->|Hne].
          -- simpl. split; [lia|]. congruence.
          -- specialize (CI_pc0 c'). simpl. destruct (cpcs s c'); exact CI_pc0.
        * intros c' x H. apply HH in H. apply HDm. destruct H as [[_ H]|[_ H]]; [left; exact (CI_held0 _ _ H)|auto].
        * intros c1 c2 x H1 H2. apply HH in H1, H2.
          destruct H1 as [[N1 H1]|[N1 H1]], H2 as [[N2 H2]|[N2 H2]].
          -- exact (CI_uniq0 _ _ _ H1 H2).
          -- subst x. exfalso. apply Hnd. exact (CI_held0 _ _ H1).
          -- subst x. exfalso. apply Hnd. exact (CI_held0 _ _ H2).
          -- congruence.
        * intros x H. apply HDm. left. auto.
        * intros c' x H Hin. apply HH in H. destruct H as [[_ H]|[_ ->]]; [exact (CI_done_held0 _ _ H Hin)|].
          apply Hnd. auto.
        * intros x H. apply HDm. left. auto.
        * intros c' st' len' x. unfold s'. rewrite cpcs_goto. destruct (Z.eqb_spec c' c) as [->|Hne].
          -- intros [= <- <- <-] Hin. apply Hnd. auto.
          -- apply CI_fin_work0.
        * intros c' x. unfold s'. rewrite cpcs_goto. destruct (Z.eqb_spec c' c) as [->|Hne]; [discriminate|].
          apply CI_fin_fin0.
        * change (BlockNext (cit s')) with (w + 1). change (calls s') with (calls s ++ [(st, len)]).
          rewrite Hr, filter_app, map_app, CI_calls0. fold w. cbn [filter]. rewrite Hvb. simpl. congruence.
        * intros x H. apply HDm in H. destruct H as [H| ->].
          -- destruct (CI_cov0 x H) as [H'|(c' & H')]; [left; exact H'|right]. exists c'. apply HH. left.
             split; [|exact H']. intros ->. rewrite Epc in H'. exact H'.
          -- right. exists c. apply HH. right. auto.
      + rewrite (take_invalid _ w HS Hw Hv).
        assert (Hvb : validb w = false) by (unfold validb, valid in *; lia).
        set (s1 := mkC (set_next (cit s) (w + 1)) (cpcs s) (calls s) (fins s)).
        assert (HDm : forall x, CDrawn s1 x <-> CDrawn s x).
        { intros x. unfold CDrawn. change (BlockNext (cit s1)) with (w + 1). fold w. split; [|intros [? ?]; split; [assumption|lia]].
          intros [H1 H2]. split; [exact H1|]. destruct (Z.eq_dec x w) as [->|]; [contradiction|lia]. }
        assert (I1 : CInv s1 done fin).
        { destruct I. constructor; try assumption.
          - change (BlockNext (cit s1)) with (w + 1). lia.
          - intros c' x H. apply HDm. exact (CI_held0 _ _ H).
          - intros x H. apply HDm. auto.
          - intros x H. apply HDm. auto.
          - change (BlockNext (cit s1)) with (w + 1). change (calls s1) with (calls s).
            rewrite Hr, filter_app, map_app, CI_calls0. fold w. cbn [filter]. rewrite Hvb. simpl.
            rewrite app_nil_r. reflexivity.
          - intros x H. apply HDm in H. exact (CI_cov0 x H). }
        exists done, fin. apply cinv_goto_nohold; [exact I1| | |].
        * simpl. rewrite Epc. simpl. tauto.
        * destruct (c =? 0); simpl; tauto.
        * destruct (c =? 0) eqn:E; simpl; lia.
    - (* callback returns *)
      pose proof (CI_pc _ _ _ I c) as Hpc. rewrite Epc in Hpc. simpl in Hpc. destruct Hpc as [Hc Hp].
      assert (Hheld : cholds (cpcs s c) w) by (rewrite Epc; reflexivity).
      pose proof (CI_held _ _ _ I _ _ Hheld) as Hdr.
      match goal with |- exists d f, CInv ?X d f => set (s' := X) end.
      assert (HH : forall c' x, cholds (cpcs s' c') x <-> cholds (cpcs s c') x).
      { intros c' x. unfold s'. rewrite cpcs_goto. destruct (Z.eqb_spec c' c) as [->|Hne]; [|tauto].
        rewrite Epc. simpl. tauto. }
      exists done, (fin ++ [w]). destruct I. constructor; try assumption.
      + intros c'. unfold s'. rewrite cpcs_goto. destruct (Z.eqb_spec c' c) as [->|Hne]; [simpl; lia|].
        specialize (CI_pc0 c'). simpl. destruct (cpcs s c'); exact CI_pc0.
      + intros c' x H. apply HH in H. exact (CI_held0 _ _ H).
      + intros c1 c2 x H1 H2. apply HH in H1, H2. exact (CI_uniq0 _ _ _ H1 H2).
      + intros c' x H. apply HH in H. exact (CI_done_held0 _ _ H).
      + change (fins s') with (fins s ++ [(st, len)]). rewrite map_app, CI_fin0. simpl. congruence.
      + apply NoDup_app_iff_local. split; [assumption|]. split; [constructor; [simpl; tauto|constructor]|].
        intros x Hx [<-|[]]. exact (CI_fin_work0 _ _ _ _ Epc Hx).
      + intros x Hx. apply in_app_iff in Hx. destruct Hx as [Hx|[<-|[]]]; [apply CI_fin_dr0, Hx|exact Hdr].
      + intros c' st' len' x. unfold s'. rewrite cpcs_goto. destruct (Z.eqb_spec c' c) as [->|Hne]; [discriminate|].
        simpl. intros H Hin. apply in_app_iff in Hin. destruct Hin as [Hin|[<-|[]]].
        * exact (CI_fin_work0 _ _ _ _ H Hin).
        * apply Hne. apply (CI_uniq0 c' c w); [rewrite H; reflexivity|exact Hheld].
      + intros c' x. unfold s'. rewrite cpcs_goto. destruct (Z.eqb_spec c' c) as [->|Hne].
        * intros [= <-]. apply in_app_iff. right. left. reflexivity.
        * simpl. intros H. apply in_app_iff. left. exact (CI_fin_fin0 _ _ H).
      + intros x Hx. apply in_app_iff. left. apply CI_fin_done0, Hx.
      + intros x H. destruct (CI_cov0 x H) as [H'|(c' & H')]; [left; exact H'|right]. exists c'. apply HH, H'.
    - (* CompleteWorkBlock *)
      pose proof (CI_pc _ _ _ I c) as Hpc. rewrite Epc in Hpc. simpl in Hpc.
      assert (Hheld : cholds (cpcs s c) w) by (rewrite Epc; reflexivity).
      pose proof (CI_held _ _ _ I _ _ Hheld) as Hdr.
      pose proof (CI_done_held _ _ _ I _ _ Hheld) as Hnd.
      match goal with |- exists d f, CInv ?X d f => set (s' := X) end.
      assert (HH : forall c' x, cholds (cpcs s' c') x <-> c' <> c /\ cholds (cpcs s c') x).
      { intros c' x. unfold s'. rewrite cpcs_goto. destruct (Z.eqb_spec c' c) as [->|Hne]; simpl; tauto. }
      exists (w :: done), fin. destruct I. constructor; try assumption.
      + intros c'. unfold s'. rewrite cpcs_goto. destruct (Z.eqb_spec c' c) as [->|Hne]; [simpl; lia|].
        specialize (CI_pc0 c'). simpl. destruct (cpcs s c'); simpl in *; try exact CI_pc0. lia.
      + intros c' x H. apply HH in H. exact (CI_held0 _ _ (proj2 H)).
      + intros c1 c2 x H1 H2. apply HH in H1, H2. exact (CI_uniq0 _ _ _ (proj2 H1) (proj2 H2)).
      + constructor; assumption.
      + intros x [<-|H]; [exact Hdr|apply CI_done_dr0, H].
      + intros c' x H [<-|Hin]; apply HH in H.
        * apply (proj1 H). exact (CI_uniq0 _ _ _ (proj2 H) Hheld).
        * exact (CI_done_held0 _ _ (proj2 H) Hin).
      + change (BlocksCompleted (cit s')) with (BlocksCompleted (cit s) + 1). cbn [length]. lia.
      + intros c' st' len' x. unfold s'. rewrite cpcs_goto. destruct (Z.eqb_spec c' c) as [->|Hne]; [discriminate|].
        apply CI_fin_work0.
      + intros c' x. unfold s'. rewrite cpcs_goto. destruct (Z.eqb_spec c' c) as [->|Hne]; [discriminate|].
        apply CI_fin_fin0.
      + intros x [<-|H]; [exact (CI_fin_fin0 _ _ Epc)|apply CI_fin_done0, H].
      + intros x H. destruct (CI_cov0 x H) as [H'|(c' & H')]; [left; right; exact H'|].
        destruct (Z.eq_dec c' c) as [->|Hne].
        * rewrite Epc in H'. simpl in H'. left. left. exact H'.
        * right. exists c'. apply HH. auto.
    - pose proof (CI_pc _ _ _ I c) as Hpc. rewrite Epc in Hpc. simpl in Hpc.
      rewrite (target_tgt _ (CI_static _ _ _ I)).
      exists done, fin. destruct (BlocksCompleted (cit s) <? tgt) eqn:E; [exact I|].
      apply cinv_goto_nohold; [exact I|rewrite Epc; simpl; tauto|simpl; tauto|]. simpl. lia.
    - eauto.
  Qed.

  Lemma crun_inv sched s done fin : CInv s done fin -> exists done' fin', CInv (crun md s sched) done' fin'.
  Proof.
    revert s done fin. induction sched as [|c sched IH]; intros s done fin I; simpl; [eauto|].
    destruct (cstep_inv c s done fin I) as (d & f & I'). eapply IH, I'.
  Qed.

  Lemma creach_inv sched : exists done fin, CInv (crun md (cstart md n T zz) sched) done fin.
  Proof. eapply crun_inv, cinv_start. Qed.

  Lemma tgt_nonneg : 0 <= tgt.
  Proof. unfold tgt. destruct md; [apply BL_nonneg, Hn|exact Hn]. Qed.

  Lemma w0_bounds : 0 <= w0 <= 1. Proof. unfold w0. destruct md; lia. Qed.

  Lemma returned_done s done fin c : CInv s done fin -> cpcs s c = CReturned ->
    forall w, valid w -> In w done.
  Proof.
    intros I Hr w Hv. pose proof (CI_pc _ _ _ I c) as Hpc. rewrite Hr in Hpc. simpl in Hpc.
    assert (H : In (w - w0) (map (fun x => x - w0) done)).
    { apply (pigeon_all _ tgt).
      - apply FinFun.Injective_map_NoDup; [intros a b; lia|apply (CI_done_nd _ _ _ I)].
      - intros x Hx. apply in_map_iff in Hx. destruct Hx as (y & <- & Hy).
        apply (CI_done_dr _ _ _ I) in Hy. destruct Hy as [Hy _]. unfold valid in Hy. lia.
      - rewrite map_length, (CI_done_len _ _ _ I). lia.
      - unfold valid in Hv. lia. }
    apply in_map_iff in H. destruct H as (y & Hy & Hin). replace w with y by lia. exact Hin.
  Qed.

  Lemma filter_valid b : w0 + tgt <= b -> filter validb (zrange 0 b) = zrange w0 (w0 + tgt).
  Proof.
    intros Hb. pose proof w0_bounds. pose proof tgt_nonneg.
    rewrite (zrange_split 0 w0 b) by lia. rewrite (zrange_split w0 (w0 + tgt) b) by lia.
    rewrite !filter_app.
    assert (F : forall l, (forall x, In x l -> validb x = false) -> filter validb l = []).
    { induction l as [|a l IH]; intros Hl; [reflexivity|]. simpl. rewrite Hl by (left; reflexivity).
      apply IH. intros; apply Hl; right; assumption. }
    assert (G : forall l, (forall x, In x l -> validb x = true) -> filter validb l = l).
    { induction l as [|a l IH]; intros Hl; [reflexivity|]. simpl. rewrite Hl by (left; reflexivity).
      f_equal. apply IH. intros; apply Hl; right; assumption. }
    rewrite (F (zrange 0 w0)), (G (zrange w0 (w0 + tgt))), (F (zrange (w0 + tgt) b)).
    - rewrite app_nil_r. reflexivity.
    - intros x Hx. apply zrange_In in Hx. unfold validb. lia.
    - intros x Hx. apply zrange_In in Hx. unfold validb. lia.
    - intros x Hx. apply zrange_In in Hx. unfold validb. lia.
  Qed.

  (** at return: the callback invocations are exactly the pieces, in order, and all have returned *)
  Lemma returned_calls s done fin c : CInv s done fin -> cpcs s c = CReturned ->
    calls s = map piece (zrange w0 (w0 + tgt)) /\
    Permutation (fins s) (calls s) /\ forall c' w, ~ cholds (cpcs s c') w.
  Proof.
    intros I Hr. pose proof (returned_done s done fin c I Hr) as Hd.
    assert (Hcalls : calls s = map piece (zrange w0 (w0 + tgt))).
    { rewrite (CI_calls _ _ _ I). f_equal. destruct (Z_le_gt_dec tgt 0) as [Ht|Ht].
      - pose proof tgt_nonneg. rewrite (zrange_nil w0) by lia.
        apply incl_l_nil. intros x Hx. apply filter_In in Hx. unfold validb in Hx. lia.
      - apply filter_valid.
        assert (Hv : valid (w0 + tgt - 1)) by (unfold valid; lia).
        pose proof (CI_done_dr _ _ _ I _ (Hd _ Hv)) as [_ H]. lia. }
    split; [exact Hcalls|]. split.
    - rewrite Hcalls, (CI_fin _ _ _ I). apply Permutation_map. apply NoDup_Permutation.
      + apply (CI_fin_nd _ _ _ I).
      + apply zrange_NoDup.
      + intros x. rewrite zrange_In. split.
        * intros Hx. apply (CI_fin_dr _ _ _ I) in Hx. apply Hx.
        * intros Hx. apply (CI_fin_done _ _ _ I). apply Hd. exact Hx.
    - intros c' w Hh. apply (CI_done_held _ _ _ I _ _ Hh). apply Hd. apply (CI_held _ _ _ I _ _ Hh).
  Qed.

  Lemma cstep_other c c' s : c' <> c -> cpcs (cstep md c s) c' = cpcs s c'.
  Proof.
    intros Hne. unfold cstep. destruct (cpcs s c) as [| |st len w|w| |].
    - destruct ((1 <=? c) && (c <=? ThreadWakeup (cit s))); [apply zupd_neq, Hne|reflexivity].
    - destruct (take md (cit s) (BlockNext (cit s))) as [[? ?]|]; apply zupd_neq, Hne.
    - apply zupd_neq, Hne.
    - apply zupd_neq, Hne.
    - destruct (BlocksCompleted (cit s) <? target md (cit s)); [reflexivity|apply zupd_neq, Hne].
    - reflexivity.
  Qed.

  Lemma crun_returned sched s c : cpcs s c = CReturned -> cpcs (crun md s sched) c = CReturned.
  Proof.
    revert s. induction sched as [|c' sched IH]; intros s H; simpl; [exact H|].
    apply IH. destruct (Z.eq_dec c' c) as [->|Hne].
    - unfold cstep. rewrite H. exact H.
    - rewrite cstep_other by lia. exact H.
  Qed.
End Counter.

(** ------- coverage of the pieces ------- *)
Definition covers (e : Z) (p : Z * Z) : bool := (fst p <=? e) && (e <? fst p + snd p).
Definition ncover (e : Z) (l : list (Z * Z)) : Z := Z.of_nat (length (filter (covers e) l)).

Lemma ncover_unique {A} (f : A -> Z * Z) e l : NoDup l ->
  (forall x y, In x l -> In y l -> covers e (f x) = true -> covers e (f y) = true -> x = y) ->
  ncover e (map f l) <= 1.
Proof.
  intros Hnd Huniq. unfold ncover. induction l as [|a l IH]; [simpl; lia|].
  inversion_clear Hnd as [|? ? Hna Hnd']. simpl.
  assert (IH' : Z.of_nat (length (filter (covers e) (map f l))) <= 1).
  { apply IH; [assumption|]. intros x y Hx Hy. apply Huniq; right; assumption. }
  destruct (covers e (f a)) eqn:E; [|exact IH'].
  replace (filter (covers e) (map f l)) with (@nil (Z * Z)).
  - simpl. lia.
  - symmetry. apply incl_l_nil. intros p Hp. exfalso. apply filter_In in Hp. destruct Hp as [Hp Hc].
    apply in_map_iff in Hp. destruct Hp as (y & <- & Hy). apply Hna.
    rewrite (Huniq a y); [exact Hy|left; reflexivity|right; exact Hy|exact E|exact Hc].
Qed.

Lemma ncover_pos e l p : In p l -> covers e p = true -> 1 <= ncover e l.
Proof.
  intros Hin Hc. unfold ncover.
  assert (H : In p (filter (covers e) l)) by (apply filter_In; auto).
  destruct (filter (covers e) l); [destruct H|simpl length; lia].
Qed.

Lemma ncover_zero e l : (forall p, In p l -> covers e p = false) -> ncover e l = 0.
Proof.
  intros H. unfold ncover. replace (filter (covers e) l) with (@nil (Z * Z)); [reflexivity|].
  symmetry. apply incl_l_nil. intros p Hp. exfalso. apply filter_In in Hp. destruct Hp as [Hp Hc].
  rewrite H in Hc by exact Hp. discriminate.
Qed.

Lemma chunk_pieces_cover n e : 0 <= n ->
  ncover e (map (piece ChunkMode n) (zrange 0 (BL n))) = if (0 <=? e) && (e <? n) then 1 else 0.
Proof.
  intros Hn.
  assert (Hc : forall w, In w (zrange 0 (BL n)) -> covers e (piece ChunkMode n w) = true <-> 0 <= e < n /\ e / CH = w).
  { intros w Hw. apply zrange_In in Hw. unfold covers; simpl. rewrite <- (blen_elems n w e Hw). lia. }
  destruct ((0 <=? e) && (e <? n)) eqn:E.
  - assert (ncover e (map (piece ChunkMode n) (zrange 0 (BL n))) <= 1).
    { apply ncover_unique; [apply zrange_NoDup|]. intros x y Hx Hy H1 H2.
      apply Hc in H1, H2; try assumption. lia. }
    assert (Hw : In (e / CH) (zrange 0 (BL n))) by (apply zrange_In, block_of_elem; lia).
    assert (1 <= ncover e (map (piece ChunkMode n) (zrange 0 (BL n)))); [|lia].
    eapply ncover_pos; [apply in_map, Hw|]. apply Hc; [exact Hw|]. lia.
  - apply ncover_zero. intros p Hp. apply in_map_iff in Hp. destruct Hp as (w & <- & Hw).
    destruct (covers e (piece ChunkMode n w)) eqn:E2; [|reflexivity]. apply Hc in E2; [lia|exact Hw].
Qed.
