(** Sleep_Proofs.v - progress of the worker loop with sleeping. *)
From Verif Require Import Base Threads_Model Threads_Proofs Threads_Live_Proofs Threads_Counter_Proofs Sleep_Model.

Section Sleep.
  Variables (md : mode) (n T : Z) (zz : bool).
  Hypothesis Hn : 0 <= n.
  Hypothesis HT : 0 <= T.
  Notation CInv := (CInv md n T).
  Notation G := (w0 md + tgt md n).

  Lemma sstep_base c s : base (sstep md c s) = cstep md c (base s) \/ base (sstep md c s) = base s.
  Proof.
    unfold sstep. destruct (Z.eqb_spec c 0) as [->|Hc]; [left; reflexivity|].
    destruct (wk s c) as [| |did|]; [right; reflexivity| | |right; reflexivity].
    - destruct (is_returned _); [right; reflexivity|]. destruct (_ && _); [left|right]; reflexivity.
    - left. destruct (cpcs (cstep md c (base s)) c); reflexivity.
  Qed.

  Lemma sinv_step c s : (exists d f, CInv (base s) d f) -> exists d f, CInv (base (sstep md c s)) d f.
  Proof.
    intros (d & f & I). destruct (sstep_base c s) as [->| ->]; [|eauto].
    exact (cstep_inv md n T c (base s) d f I).
  Qed.

  (** the worker's loop position fits its position inside DoWork *)
  Definition fits (w : wst) (p : cpc) : Prop :=
    match w with
    | InWork did => match p with CDraw => True | CWork _ _ _ => did = true | CFinish _ => did = true | _ => False end
    | _ => p = CIdle
    end.

  Record SInv (a : Z) (s : sstate) : Prop := {
    SI_c : exists d f, CInv (base s) d f;
    SI_fits : forall c, c <> 0 -> fits (wk s c) (cpcs (base s) c);
    (* before everything is handed out, someone able to draw is awake *)
    SI_next0 : BlockNext (cit (base s)) = 0 -> cpcs (base s) 0 = CDraw;
    SI_main : BlockNext (cit (base s)) < G ->
       match cpcs (base s) 0 with CDraw | CWork _ _ _ | CFinish _ => True | _ => False end \/
       (md = IndexMode /\ 1 <= BlockNext (cit (base s)) /\ wk s a <> Asleep /\ wk s a <> AboutWait);
    SI_a : md = IndexMode -> BlockNext (cit (base s)) = 0 -> wk s a <> Asleep /\ wk s a <> AboutWait
  }.

  Lemma cstep_next c s : BlockNext (cit (cstep md c s)) =
     BlockNext (cit s) + (match cpcs s c with CDraw => 1 | _ => 0 end).
  Proof.
    unfold cstep. destruct (cpcs s c) as [| |st len w|w| |].
    - destruct (_ && _); simpl; lia.
    - destruct (take md (cit s) (BlockNext (cit s))) as [[? ?]|]; simpl; lia.
    - simpl; lia.
    - simpl; lia.
    - destruct (_ <? _); simpl; lia.
    - lia.
  Qed.

  Lemma cstep_self c s d f : CInv s d f -> c <> 0 ->
    match cpcs s c with
    | CDraw => (if validb md n (BlockNext (cit s)) then cpcs (cstep md c s) c = CWork (fst (piece md n (BlockNext (cit s)))) (snd (piece md n (BlockNext (cit s)))) (BlockNext (cit s))
                else cpcs (cstep md c s) c = CIdle)
    | CWork _ _ w => cpcs (cstep md c s) c = CFinish w
    | CFinish w => cpcs (cstep md c s) c = CDraw
    | CIdle => cpcs (cstep md c s) c = if (1 <=? c) && (c <=? T) then CDraw else CIdle
    | _ => True
    end.
  Proof.
    intros I Hc. unfold cstep. destruct (cpcs s c) as [| |st len w|w| |] eqn:E.
    - destruct (CI_static _ _ _ _ _ _ I) as (S1 & S2 & S3 & S4). rewrite S2.
      destruct (_ && _); [|exact E]. rewrite cpcs_goto, Z.eqb_refl. reflexivity.
    - pose proof (CI_next _ _ _ _ _ _ I) as Hnx.
      destruct (validb md n (BlockNext (cit s))) eqn:Ev.
      + rewrite (take_valid md n T) by (try apply (CI_static _ _ _ _ _ _ I); unfold valid, validb in *; lia).
        destruct (piece md n (BlockNext (cit s))) as [st len] eqn:Ep. simpl. rewrite zupd_eq. reflexivity.
      + rewrite (take_invalid md n T) by (try apply (CI_static _ _ _ _ _ _ I); unfold valid, validb in *; lia).
        simpl. rewrite zupd_eq. destruct (Z.eqb_spec c 0); [contradiction|reflexivity].
    - simpl. rewrite zupd_eq. reflexivity.
    - simpl. rewrite zupd_eq. reflexivity.
    - exact Logic.I.
    - exact Logic.I.
  Qed.

  Lemma cstep_main s d f : CInv s d f ->
    match cpcs s 0 with
    | CDraw => (if validb md n (BlockNext (cit s)) then cpcs (cstep md 0 s) 0 = CWork (fst (piece md n (BlockNext (cit s)))) (snd (piece md n (BlockNext (cit s)))) (BlockNext (cit s))
                else cpcs (cstep md 0 s) 0 = CWait)
    | CWork _ _ w => cpcs (cstep md 0 s) 0 = CFinish w
    | CFinish w => cpcs (cstep md 0 s) 0 = CDraw
    | CWait => cpcs (cstep md 0 s) 0 = (if BlocksCompleted (cit s) <? tgt md n then CWait else CReturned)
    | CReturned => cpcs (cstep md 0 s) 0 = CReturned
    | CIdle => False
    end.
  Proof.
    intros I. pose proof (CI_pc _ _ _ _ _ _ I 0) as Hpc. unfold cstep.
    destruct (cpcs s 0) as [| |st len w|w| |] eqn:E.
    - simpl in Hpc. lia.
    - pose proof (CI_next _ _ _ _ _ _ I) as Hnx.
      destruct (validb md n (BlockNext (cit s))) eqn:Ev.
      + rewrite (take_valid md n T) by (try apply (CI_static _ _ _ _ _ _ I); unfold valid, validb in *; lia).
        destruct (piece md n (BlockNext (cit s))) as [st len] eqn:Ep. simpl. rewrite zupd_eq. reflexivity.
      + rewrite (take_invalid md n T) by (try apply (CI_static _ _ _ _ _ _ I); unfold valid, validb in *; lia).
        simpl. rewrite zupd_eq. reflexivity.
    - simpl. rewrite zupd_eq. reflexivity.
    - simpl. rewrite zupd_eq. reflexivity.
    - rewrite (target_tgt md n T) by apply (CI_static _ _ _ _ _ _ I).
      destruct (_ <? _); [exact E|]. simpl. rewrite zupd_eq. reflexivity.
    - exact E.
  Qed.

  Lemma sinv_start a woken : (md = IndexMode -> a <> 0 /\ woken a = true) -> SInv a (sstart md n T zz woken).
  Proof.
    intros Ha. constructor.
    - exists [], []. apply cinv_start; assumption.
    - intros c Hc. simpl. destruct (c =? 0) eqn:E; [lia|]. destruct (woken c); reflexivity.
    - reflexivity.
    - intros _. left. exact Logic.I.
    - intros H _. destruct (Ha H) as [H0 H1]. simpl. rewrite H1. split; discriminate.
  Qed.

  Lemma valid_lt b : 0 <= b -> validb md n b = true <-> (w0 md <= b < G).
  Proof. unfold validb. lia. Qed.

  Lemma sinv_step_full a c s : 0 <= c -> (md = IndexMode -> 1 <= a <= T) -> SInv a s -> SInv a (sstep md c s).
  Proof.
    intros Hc0 HaT I. destruct (SI_c _ _ I) as (d & f & IC).
    pose proof (SI_fits _ _ I) as Hf. pose proof (SI_next0 _ _ I) as Hn0.
    pose proof (SI_main _ _ I) as Hm. pose proof (SI_a _ _ I) as HA.
    pose proof (CI_next _ _ _ _ _ _ IC) as Hnx.
    pose proof (sinv_step c s (SI_c _ _ I)) as HC.
    destruct (Z.eq_dec c 0) as [->|Hc].
    - (* main *)
      assert (Es : sstep md 0 s = mkS (cstep md 0 (base s)) (wk s)) by reflexivity.
      rewrite Es in *. cbn [base wk] in *.
      pose proof (cstep_main (base s) d f IC) as HM. pose proof (cstep_next 0 (base s)) as HN.
      constructor; cbn [base wk].
      + exact HC.
      + intros c Hc. rewrite cstep_other by lia. apply Hf, Hc.
      + intros H. assert (E0 : BlockNext (cit (base s)) = 0) by (destruct (cpcs (base s) 0); lia).
        specialize (Hn0 E0). rewrite Hn0 in HN. lia.
      + intros HG. destruct (cpcs (base s) 0) as [| |st len w|w| |] eqn:E.
        * contradiction.
        * destruct (validb md n (BlockNext (cit (base s)))) eqn:Ev.
          -- rewrite HM. left. exact Logic.I.
          -- right. assert (Hi : BlockNext (cit (base s)) = 0 /\ md = IndexMode).
             { pose proof (valid_lt _ Hnx) as Hv. rewrite Ev in Hv. unfold w0 in *. destruct md; split; auto; lia. }
             destruct Hi as [Hi Hmd]. split; [exact Hmd|]. split; [lia|]. exact (HA Hmd Hi).
        * rewrite HM. left. exact Logic.I.
        * rewrite HM. left. exact Logic.I.
        * destruct Hm as [[]|H]; [lia|]. right. rewrite HN. replace (_ + 0) with (BlockNext (cit (base s))) by lia. exact H.
        * destruct Hm as [[]|H]; [lia|]. right. rewrite HN. replace (_ + 0) with (BlockNext (cit (base s))) by lia. exact H.
      + intros Hmd H. apply HA; [exact Hmd|]. destruct (cpcs (base s) 0); lia.
    - unfold sstep in *. destruct (Z.eqb_spec c 0) as [|_]; [contradiction|].
      pose proof (cstep_self c (base s) d f IC Hc) as HS. pose proof (cstep_next c (base s)) as HN.
      assert (HO : cpcs (cstep md c (base s)) 0 = cpcs (base s) 0) by (apply cstep_other; lia).
      pose proof (Hf c Hc) as Hfc.
      destruct (wk s c) as [| |did|] eqn:Ew.
      + exact I.
      + (* Top *)
        simpl in Hfc. rewrite Hfc in HS, HN.
        destruct (is_returned (cpcs (base s) 0)) eqn:Er.
        { constructor; cbn [base wk wset].
          - exact HC.
          - intros c' Hc'. unfold zupd. destruct (Z.eqb_spec c' c) as [->|]; [exact Hfc|apply Hf, Hc'].
          - exact Hn0.
          - intros HG. destruct (cpcs (base s) 0) eqn:E0; try discriminate. exfalso.
            (* returned means all blocks done *)
            pose proof (returned_calls md n T Hn (base s) d f 0 IC E0) as (R1 & _).
            pose proof (returned_done md n T (base s) d f 0 IC E0) as Hd.
            destruct (Z.eq_dec (tgt md n) 0) as [Hz|Hz].
            + assert (BlockNext (cit (base s)) = 0) by (unfold w0 in *; destruct md; lia).
              specialize (Hn0 H). discriminate.
            + assert (Hv : valid md n (G - 1)).
              { pose proof (tgt_nonneg md n Hn). unfold valid. lia. }
              pose proof (CI_done_dr _ _ _ _ _ _ IC _ (Hd _ Hv)) as [_ Hlt]. lia.
          - intros Hmd H. specialize (Hn0 H). rewrite Hn0 in Er. discriminate. }
        pose proof (CI_static _ _ _ _ _ _ IC) as (S1 & S2 & S3 & S4). rewrite S2 in *.
        destruct ((1 <=? c) && (c <=? T)) eqn:Ee.
        * constructor; cbn [base wk].
          -- exact HC.
          -- intros c' Hc'. unfold zupd. destruct (Z.eqb_spec c' c) as [->|Hne].
             ++ rewrite HS. exact Logic.I.
             ++ rewrite cstep_other by lia. apply Hf, Hc'.
          -- intros H. rewrite HO. apply Hn0. lia.
          -- intros HG. rewrite HO. rewrite HN. replace (_ + 0) with (BlockNext (cit (base s))) by lia.
             destruct Hm as [H|(H1 & H2 & H3 & H4)]; [lia|left; exact H|]. right. split; [exact H1|]. split; [exact H2|].
             unfold zupd. destruct (a =? c); split; try discriminate; assumption.
          -- intros Hmd H. unfold zupd. destruct (a =? c); [split; discriminate|]. apply HA; [exact Hmd|lia].
        * constructor; cbn [base wk wset].
          -- exact HC.
          -- intros c' Hc'. unfold zupd. destruct (Z.eqb_spec c' c) as [->|]; [exact Hfc|apply Hf, Hc'].
          -- exact Hn0.
          -- intros HG. destruct Hm as [H|(H1 & H2 & H3 & H4)]; [lia|left; exact H|]. right. split; [exact H1|].
             split; [exact H2|]. unfold zupd. destruct (Z.eqb_spec a c); [specialize (HaT H1); lia|]. auto.
          -- intros Hmd H. unfold zupd. destruct (Z.eqb_spec a c); [specialize (HaT Hmd); lia|]. apply HA; assumption.
      + (* InWork *)
        simpl in Hfc.
        assert (HB : base (match cpcs (cstep md c (base s)) c with
               | CIdle => mkS (cstep md c (base s)) (zupd (wk s) c (if did then Top else AboutWait))
               | CWork _ _ _ => mkS (cstep md c (base s)) (zupd (wk s) c (InWork true))
               | _ => mkS (cstep md c (base s)) (wk s) end) = cstep md c (base s)).
        { destruct (cpcs (cstep md c (base s)) c); reflexivity. }
        set (s' := match cpcs (cstep md c (base s)) c with
               | CIdle => mkS (cstep md c (base s)) (zupd (wk s) c (if did then Top else AboutWait))
               | CWork _ _ _ => mkS (cstep md c (base s)) (zupd (wk s) c (InWork true))
               | _ => mkS (cstep md c (base s)) (wk s) end) in *.
        assert (HW : wk s' = zupd (wk s) c (match cpcs (cstep md c (base s)) c with
               | CIdle => if did then Top else AboutWait | CWork _ _ _ => InWork true | _ => wk s c end) \/
               (wk s' = wk s /\ match cpcs (cstep md c (base s)) c with CIdle | CWork _ _ _ => False | _ => True end)).
        { unfold s'. destruct (cpcs (cstep md c (base s)) c); cbn [wk]; tauto. }
        assert (Hother : forall c', c' <> c -> wk s' c' = wk s c').
        { intros c' Hc'. destruct HW as [->|[-> _]]; [apply zupd_neq, Hc'|reflexivity]. }
        assert (Hself : wk s' c = match cpcs (cstep md c (base s)) c with
               | CIdle => if did then Top else AboutWait | CWork _ _ _ => InWork true | _ => InWork did end).
        { unfold s'. destruct (cpcs (cstep md c (base s)) c); cbn [wk]; rewrite ?zupd_eq, ?Ew; reflexivity. }
        assert (HdidIdle : cpcs (cstep md c (base s)) c = CIdle -> cpcs (base s) c = CDraw /\
                 validb md n (BlockNext (cit (base s))) = false).
        { intros Hi. destruct (cpcs (base s) c); try contradiction; try congruence.
          destruct (validb md n (BlockNext (cit (base s)))); [rewrite HS in Hi; discriminate|auto]. }
        constructor.
        * exact HC.
        * intros c' Hc'. destruct (Z.eq_dec c' c) as [->|Hne].
          -- rewrite HB, Hself. destruct (cpcs (base s) c) eqn:Ec; try contradiction.
             ++ destruct (validb md n (BlockNext (cit (base s)))); rewrite HS; simpl; [reflexivity|].
                destruct did; reflexivity.
             ++ rewrite HS. simpl. exact Hfc.
             ++ rewrite HS. exact Logic.I.
          -- rewrite HB, Hother by exact Hne. rewrite cstep_other by lia. apply Hf, Hc'.
        * rewrite HB, HO. intros H. apply Hn0. destruct (cpcs (base s) c); lia.
        * rewrite HB, HO. intros HG. destruct Hm as [H|(H1 & H2 & H3 & H4)]; [destruct (cpcs (base s) c); lia|left; exact H|].
          right. split; [exact H1|]. split; [destruct (cpcs (base s) c); lia|].
          destruct (Z.eq_dec a c) as [->|Hne].
          -- rewrite Hself. destruct (cpcs (cstep md c (base s)) c) eqn:Ei; try (split; discriminate).
             destruct (HdidIdle eq_refl) as [Hd1 Hd2]. pose proof (valid_lt _ Hnx) as Hv. rewrite Hd2 in Hv.
             rewrite Hd1 in HN. exfalso. unfold w0 in *. destruct md; lia.
          -- rewrite Hother by exact Hne. auto.
        * rewrite HB. intros Hmd H. assert (H0 : BlockNext (cit (base s)) = 0) by (destruct (cpcs (base s) c); lia).
          destruct (Z.eq_dec a c) as [->|Hne]; [|rewrite Hother by exact Hne; apply HA; assumption].
          rewrite Hself. destruct (cpcs (cstep md c (base s)) c) eqn:Ei; try (split; discriminate).
          destruct (HdidIdle eq_refl) as [Hd1 Hd2]. rewrite Hd1 in HN. lia.
      + (* AboutWait *)
        constructor; cbn [base wk wset].
        * exact HC.
        * intros c' Hc'. unfold zupd. destruct (Z.eqb_spec c' c) as [->|]; [exact Hfc|apply Hf, Hc'].
        * exact Hn0.
        * intros HG. destruct Hm as [H|(H1 & H2 & H3 & H4)]; [lia|left; exact H|]. right. split; [exact H1|].
          split; [exact H2|]. unfold zupd. destruct (Z.eqb_spec a c) as [->|]; [congruence|auto].
        * intros Hmd H. unfold zupd. destruct (Z.eqb_spec a c) as [->|]; [destruct (HA Hmd H); congruence|].
          apply HA; assumption.
  Qed.

  (** ---- measure ---- *)
  Definition mrank (p : cpc) : Z :=
    match p with CDraw => 6 | CWork _ _ _ => 8 | CFinish _ => 7 | CWait => 1 | _ => 0 end.
  Definition wrank (w : wst) (p : cpc) : Z :=
    match w with
    | Asleep => 0 | AboutWait => 1 | Top => 7
    | InWork false => 6
    | InWork true => match p with CWork _ _ _ => 10 | CFinish _ => 9 | _ => 8 end
    end.
  Definition M (s : sstate) : Z :=
    8 * Z.max 0 (G - BlockNext (cit (base s))) + mrank (cpcs (base s) 0) +
    zsum (map (fun c => wrank (wk s c) (cpcs (base s) c)) (zrange 1 (T + 1))).

  Definition blocked (c : Z) (s : sstate) : Prop :=
    if c =? 0 then
      match cpcs (base s) 0 with
      | CReturned => True | CWait => BlocksCompleted (cit (base s)) < tgt md n | _ => False end
    else wk s c = Asleep.

  Lemma wrank_nonneg w p : 0 <= wrank w p.
  Proof. destruct w as [| |[]|]; simpl; try lia. destruct p; lia. Qed.

  Lemma M_nonneg s : 0 <= M s.
  Proof.
    unfold M. assert (0 <= mrank (cpcs (base s) 0)) by (destruct (cpcs (base s) 0); simpl; lia).
    assert (0 <= zsum (map (fun c => wrank (wk s c) (cpcs (base s) c)) (zrange 1 (T + 1)))).
    { apply zsum_nonneg. intros x Hx. apply in_map_iff in Hx. destruct Hx as (c & <- & _). apply wrank_nonneg. }
    lia.
  Qed.

  Lemma sstep_other c c' s : c' <> c -> cpcs (base (sstep md c s)) c' = cpcs (base s) c' /\
     wk (sstep md c s) c' = wk s c'.
  Proof.
    intros Hne. unfold sstep. destruct (Z.eqb_spec c 0) as [->|Hc].
    - cbn [base wk]. split; [apply cstep_other; lia|reflexivity].
    - destruct (wk s c) as [| |did|].
      + auto.
      + destruct (is_returned _); [cbn; rewrite zupd_neq by exact Hne; auto|].
        destruct (_ && _); cbn [base wk wset]; rewrite zupd_neq by exact Hne; split; try reflexivity.
        apply cstep_other; lia.
      + destruct (cpcs (cstep md c (base s)) c); cbn [base wk]; rewrite ?zupd_neq by exact Hne;
          (split; [apply cstep_other; lia|reflexivity]).
      + cbn. rewrite zupd_neq by exact Hne. auto.
  Qed.

  Lemma zsum_one (f g : Z -> Z) c : 1 <= c <= T -> (forall x, x <> c -> f x = g x) ->
    zsum (map f (zrange 1 (T + 1))) = zsum (map g (zrange 1 (T + 1))) + (f c - g c).
  Proof.
    intros Hc H.
    assert (X : forall l, NoDup l -> (~ In c l -> zsum (map f l) = zsum (map g l)) /\
       (In c l -> zsum (map f l) = zsum (map g l) + (f c - g c))).
    { induction l as [|x l IH]; intros Hnd; simpl; [split; [reflexivity|tauto]|].
      inversion_clear Hnd as [|? ? Hx Hl]. destruct (IH Hl) as [I1 I2]. split.
      - intros Hni. rewrite I1 by tauto. rewrite (H x) by (intros ->; tauto). reflexivity.
      - intros [->|Hin].
        + rewrite I1 by exact Hx. lia.
        + rewrite I2 by exact Hin. rewrite (H x) by (intros ->; tauto). lia. }
    apply X; [apply zrange_NoDup|apply zrange_In; lia].
  Qed.

  Lemma M_step_main s d f : CInv (base s) d f -> M (sstep md 0 s) <= M s - (if match cpcs (base s) 0 with
      | CReturned => true | CWait => BlocksCompleted (cit (base s)) <? tgt md n | _ => false end then 0 else 1).
  Proof.
    intros IC. unfold M.
    assert (E : zsum (map (fun c => wrank (wk (sstep md 0 s) c) (cpcs (base (sstep md 0 s)) c)) (zrange 1 (T + 1))) =
                zsum (map (fun c => wrank (wk s c) (cpcs (base s) c)) (zrange 1 (T + 1)))).
    { f_equal. apply map_ext_in. intros c Hc. apply zrange_In in Hc.
      destruct (sstep_other 0 c s) as [-> ->]; [lia|reflexivity]. }
    rewrite E. clear E. change (base (sstep md 0 s)) with (cstep md 0 (base s)).
    pose proof (cstep_main (base s) d f IC) as HM. pose proof (cstep_next 0 (base s)) as HN.
    pose proof (CI_next _ _ _ _ _ _ IC) as Hnx. pose proof (valid_lt _ Hnx) as Hv.
    destruct (cpcs (base s) 0) as [| |st len w|w| |] eqn:E.
    - contradiction.
    - destruct (validb md n (BlockNext (cit (base s)))); rewrite HM, HN; simpl mrank.
      + assert (BlockNext (cit (base s)) < G) by tauto. lia.
      + lia.
    - rewrite HM, HN. simpl mrank. lia.
    - rewrite HM, HN. simpl mrank. lia.
    - rewrite HM, HN. destruct (_ <? _); simpl mrank; lia.
    - rewrite HM, HN. simpl mrank. lia.
  Qed.

  Lemma M_step_worker c s d f : CInv (base s) d f -> 1 <= c <= T -> fits (wk s c) (cpcs (base s) c) ->
    M (sstep md c s) <= M s - (match wk s c with Asleep => 0 | _ => 1 end).
  Proof.
    intros IC Hc Hfc. unfold M.
    destruct (sstep_other c 0 s) as [-> _]; [lia|].
    rewrite (zsum_one (fun x => wrank (wk (sstep md c s) x) (cpcs (base (sstep md c s)) x))
                      (fun x => wrank (wk s x) (cpcs (base s) x)) c Hc).
    2:{ intros x Hx. destruct (sstep_other c x s Hx) as [-> ->]. reflexivity. }
    assert (Hc0 : c <> 0) by lia.
    pose proof (cstep_self c (base s) d f IC Hc0) as HS. pose proof (cstep_next c (base s)) as HN.
    pose proof (CI_next _ _ _ _ _ _ IC) as Hnx. pose proof (valid_lt _ Hnx) as Hv.
    unfold sstep. destruct (Z.eqb_spec c 0) as [|_]; [contradiction|].
    destruct (wk s c) as [| |did|] eqn:Ew.
    - rewrite Ew. simpl wrank. lia.
    - simpl in Hfc. destruct (is_returned _).
      + cbn [base wk wset]. rewrite zupd_eq. simpl wrank. lia.
      + pose proof (CI_static _ _ _ _ _ _ IC) as (S1 & S2 & S3 & S4). rewrite S2.
        destruct (_ && _) eqn:Ee; [|lia]. cbn [base wk]. rewrite zupd_eq. simpl wrank.
        rewrite Hfc in HN. lia.
    - simpl in Hfc. destruct (cpcs (base s) c) as [| |st len w|w| |] eqn:Ec; try contradiction.
      + destruct (validb md n (BlockNext (cit (base s)))).
        * rewrite HS. cbn [base wk]. rewrite zupd_eq, HS. assert (BlockNext (cit (base s)) < G) by tauto.
          destruct did; simpl wrank; lia.
        * rewrite HS. cbn [base wk]. rewrite zupd_eq. destruct did; simpl wrank; lia.
      + subst did. rewrite HS. cbn [base wk]. rewrite Ew, HS. simpl wrank. lia.
      + subst did. rewrite HS. cbn [base wk]. rewrite Ew, HS. simpl wrank. lia.
    - cbn [base wk wset]. rewrite zupd_eq. simpl wrank. lia.
  Qed.

  Lemma M_step_far a c s : SInv a s -> T < c -> M (sstep md c s) = M s.
  Proof.
    intros I Hc. destruct (SI_c _ _ I) as (d & f & IC).
    assert (HB : base (sstep md c s) = base s).
    { pose proof (SI_fits _ _ I c ltac:(lia)) as Hfc.
      unfold sstep. destruct (Z.eqb_spec c 0) as [|_]; [lia|].
      destruct (wk s c) as [| |did|] eqn:Ew; try reflexivity.
      - destruct (is_returned _); [reflexivity|].
        pose proof (CI_static _ _ _ _ _ _ IC) as (S1 & S2 & S3 & S4). rewrite S2.
        destruct (_ && _) eqn:Ee; [lia|reflexivity].
      - simpl in Hfc. pose proof (CI_pc _ _ _ _ _ _ IC c) as Hpc. destruct (cpcs (base s) c); simpl in Hpc; try contradiction; lia. }
    unfold M. rewrite HB. f_equal. f_equal. apply map_ext_in. intros x Hx. apply zrange_In in Hx.
    destruct (sstep_other c x s) as [_ ->]; [lia|]. reflexivity.
  Qed.

  Definition unblocked (c : Z) (s : sstate) : Prop :=
    if c =? 0 then
      match cpcs (base s) 0 with
      | CReturned => False | CWait => tgt md n <= BlocksCompleted (cit (base s)) | _ => True end
    else wk s c <> Asleep.

  Lemma M_step a c s : SInv a s -> 0 <= c -> M (sstep md c s) <= M s /\
     (c <= T -> unblocked c s -> M (sstep md c s) <= M s - 1).
  Proof.
    intros I Hc. destruct (SI_c _ _ I) as (d & f & IC). unfold unblocked. destruct (Z.eqb_spec c 0) as [->|Hc0].
    - pose proof (M_step_main s d f IC) as H. split.
      + destruct (cpcs (base s) 0); try lia. destruct (_ <? _) in H; lia.
      + intros _ Hu. destruct (cpcs (base s) 0); try lia; try contradiction.
        destruct (Z.ltb_spec (BlocksCompleted (cit (base s))) (tgt md n)); lia.
    - destruct (Z_le_gt_dec c T) as [HcT|HcT].
      + pose proof (M_step_worker c s d f IC ltac:(lia) (SI_fits _ _ I c Hc0)) as H.
        destruct (wk s c); split; intros; try lia; try congruence.
      + rewrite (M_step_far a c s I) by lia. split; intros; lia.
  Qed.

  Lemma cstep_completed_mono c s : BlocksCompleted (cit s) <= BlocksCompleted (cit (cstep md c s)).
  Proof.
    unfold cstep. destruct (cpcs s c) as [| |st len w|w| |].
    - destruct (_ && _); simpl; lia.
    - destruct (take md (cit s) (BlockNext (cit s))) as [[? ?]|]; simpl; lia.
    - simpl; lia.
    - simpl; lia.
    - destruct (_ <? _); simpl; lia.
    - lia.
  Qed.

  Lemma unblocked_other c c' s : c <> c' -> unblocked c s -> unblocked c (sstep md c' s).
  Proof.
    intros Hne. unfold unblocked. destruct (sstep_other c' c s) as [H1 H2]; [lia|].
    destruct (Z.eqb_spec c 0) as [->|Hc0].
    - rewrite H1. destruct (cpcs (base s) 0); try tauto.
      intros H. destruct (sstep_base c' s) as [->| ->]; [|exact H].
      pose proof (cstep_completed_mono c' (base s)). lia.
    - rewrite H2. tauto.
  Qed.

  Lemma srun_inv a sched s : (forall c, In c sched -> 0 <= c) -> (md = IndexMode -> 1 <= a <= T) ->
    SInv a s -> SInv a (srun md s sched).
  Proof.
    intros Hs Ha. revert s. induction sched as [|c sched IH]; intros s I; simpl; [exact I|].
    apply IH; [intros; apply Hs; right; assumption|].
    apply sinv_step_full; [apply Hs; left; reflexivity|exact Ha|exact I].
  Qed.

  Lemma M_run a sched s : (forall c, In c sched -> 0 <= c) -> (md = IndexMode -> 1 <= a <= T) ->
    SInv a s -> M (srun md s sched) <= M s.
  Proof.
    intros Hs Ha. revert s. induction sched as [|c sched IH]; intros s I; simpl; [lia|].
    assert (Hc : 0 <= c) by (apply Hs; left; reflexivity).
    pose proof (M_step a c s I Hc) as [H1 _].
    specialize (IH ltac:(intros; apply Hs; right; assumption) (sstep md c s) (sinv_step_full a c s Hc Ha I)).
    fold (srun md (sstep md c s) sched). lia.
  Qed.

  Lemma round_dec a c sched s : (forall c, In c sched -> 0 <= c) -> (md = IndexMode -> 1 <= a <= T) ->
    SInv a s -> 0 <= c <= T -> In c sched -> unblocked c s -> M (srun md s sched) <= M s - 1.
  Proof.
    intros Hs Ha. revert s. induction sched as [|h sched IH]; intros s I Hc Hin Hu; [destruct Hin|].
    assert (Hh : 0 <= h) by (apply Hs; left; reflexivity).
    assert (Hs' : forall c, In c sched -> 0 <= c) by (intros; apply Hs; right; assumption).
    pose proof (M_step a h s I Hh) as [H1 H2]. pose proof (sinv_step_full a h s Hh Ha I) as I'.
    simpl. fold (srun md (sstep md h s) sched).
    destruct (Z.eq_dec h c) as [->|Hne].
    - pose proof (M_run a sched _ Hs' Ha I'). specialize (H2 ltac:(lia) Hu). lia.
    - destruct Hin as [->|Hin]; [contradiction|].
      pose proof (IH Hs' _ I' Hc Hin (unblocked_other c h s ltac:(lia) Hu)). lia.
  Qed.

  (** if nobody can move, the caller has returned *)
  Lemma stuck_returned a s : (md = IndexMode -> 1 <= a <= T) -> SInv a s ->
    (forall c, 0 <= c <= T -> ~ unblocked c s) -> cpcs (base s) 0 = CReturned.
  Proof.
    intros Ha I Hst. destruct (SI_c _ _ I) as (d & f & IC).
    pose proof (Hst 0 ltac:(lia)) as H0. unfold unblocked in H0. simpl in H0.
    destruct (cpcs (base s) 0) as [| |st len w|w| |] eqn:E0; try tauto.
    exfalso. apply H0.
    assert (Hw : forall c, 1 <= c <= T -> wk s c = Asleep).
    { intros c Hc. pose proof (Hst c ltac:(lia)) as H. unfold unblocked in H.
      destruct (Z.eqb_spec c 0); [lia|]. destruct (wk s c); try reflexivity; exfalso; apply H; discriminate. }
    assert (HG : G <= BlockNext (cit (base s))).
    { destruct (Z_le_gt_dec G (BlockNext (cit (base s)))) as [|Hlt]; [assumption|exfalso].
      pose proof (SI_main _ _ I ltac:(lia)) as Hm. rewrite E0 in Hm.
      destruct Hm as [[]|(H1 & H2 & H3 & H4)]. apply H3, Hw, Ha, H1. }
    assert (Hno : forall c w, ~ cholds (cpcs (base s) c) w).
    { intros c w Hh. pose proof (CI_pc _ _ _ _ _ _ IC c) as Hpc. destruct (Z.eq_dec c 0) as [->|Hc0].
      - rewrite E0 in Hh. exact Hh.
      - pose proof (SI_fits _ _ I c Hc0) as Hf.
        assert (HcT : 0 <= c <= T) by (destruct (cpcs (base s) c); simpl in *; try contradiction; lia).
        rewrite (Hw c) in Hf by lia. simpl in Hf. rewrite Hf in Hh. exact Hh. }
    assert (Hall : forall w, valid md n w -> In w d).
    { intros w Hv. destruct (CI_cov _ _ _ _ _ _ IC w) as [H|(c & H)]; [|exact H|exfalso; eapply Hno, H].
      split; [exact Hv|]. unfold valid in Hv. lia. }
    rewrite <- (CI_done_len _ _ _ _ _ _ IC).
    assert (Hincl : incl (zrange (w0 md) G) d).
    { intros w Hw'. apply zrange_In in Hw'. apply Hall. exact Hw'. }
    pose proof (NoDup_incl_length (zrange_NoDup (w0 md) G) Hincl) as HL. rewrite zrange_length in HL. lia.
  Qed.

  Lemma unblocked_dec c s : unblocked c s \/ ~ unblocked c s.
  Proof.
    unfold unblocked. destruct (c =? 0).
    - destruct (cpcs (base s) 0); try tauto. lia.
    - destruct (wk s c); [right; tauto|left; discriminate..].
  Qed.

  Lemma exists_unblocked s : (exists c, 0 <= c <= T /\ unblocked c s) \/ (forall c, 0 <= c <= T -> ~ unblocked c s).
  Proof.
    assert (X : forall l, (exists c, In c l /\ unblocked c s) \/ (forall c, In c l -> ~ unblocked c s)).
    { induction l as [|c l IH]; [right; intros c []|].
      destruct (unblocked_dec c s) as [H|H]; [left; exists c; simpl; tauto|].
      destruct IH as [(c' & H1 & H2)|IH]; [left; exists c'; simpl; tauto|].
      right. intros c' [->|Hc']; [exact H|apply IH, Hc']. }
    destruct (X (zrange 0 (T + 1))) as [(c & Hc & Hu)|H].
    - left. exists c. apply zrange_In in Hc. split; [lia|exact Hu].
    - right. intros c Hc. apply H, zrange_In. lia.
  Qed.

  Definition rounds_ok (rounds : list (list Z)) : Prop :=
    forall r, In r rounds -> (forall c, In c r -> 0 <= c) /\ (forall c, 0 <= c <= T -> In c r).

  Lemma returned_stays sched s : cpcs (base s) 0 = CReturned -> cpcs (base (srun md s sched)) 0 = CReturned.
  Proof.
    revert s. induction sched as [|c sched IH]; intros s H; simpl; [exact H|].
    apply IH. destruct (sstep_base c s) as [->| ->]; [|exact H].
    destruct (Z.eq_dec c 0) as [->|Hne]; [|rewrite cstep_other by lia; exact H].
    unfold cstep. rewrite H. exact H.
  Qed.

  Lemma fair_rounds a rounds s : (md = IndexMode -> 1 <= a <= T) -> rounds_ok rounds -> SInv a s ->
    M s < Z.of_nat (length rounds) -> cpcs (base (srun md s (concat rounds))) 0 = CReturned.
  Proof.
    intros Ha. revert s. induction rounds as [|r rounds IH]; intros s Hr I Hlen.
    - pose proof (M_nonneg s). simpl in Hlen. lia.
    - destruct (Hr r (or_introl eq_refl)) as [Hr1 Hr2].
      cbn [concat]. unfold srun. rewrite fold_left_app. fold (srun md s r). fold (srun md (srun md s r) (concat rounds)).
      destruct (exists_unblocked s) as [(c & Hc & Hu)|Hst].
      + apply IH.
        * intros r' H'. apply Hr. right. exact H'.
        * apply srun_inv; assumption.
        * pose proof (round_dec a c r s Hr1 Ha I Hc (Hr2 c Hc) Hu). cbn [length] in Hlen. lia.
      + apply returned_stays, returned_stays. exact (stuck_returned a s Ha I Hst).
  Qed.

  Lemma M_start woken : M (sstart md n T zz woken) <= 8 * G + 6 + 7 * T.
  Proof.
    unfold M. assert (H : zsum (map (fun c => wrank (wk (sstart md n T zz woken) c) (cpcs (base (sstart md n T zz woken)) c))
               (zrange 1 (T + 1))) <= 7 * T).
    { assert (X : forall l, zsum (map (fun c => wrank (wk (sstart md n T zz woken) c)
          (cpcs (base (sstart md n T zz woken)) c)) l) <= 7 * Z.of_nat (length l)).
      { induction l as [|c l IH]; [simpl; lia|]. cbn [map length]. simpl zsum.
        assert (wrank (if woken c then Top else Asleep) (if c =? 0 then CDraw else CIdle) <= 7)
          by (destruct (woken c); simpl; lia).
        unfold zsum in *. simpl in *. lia. }
      specialize (X (zrange 1 (T + 1))). rewrite zrange_length in X. lia. }
    pose proof (w0_bounds md). pose proof (tgt_nonneg md n Hn).
    assert (E : BlockNext (cit (base (sstart md n T zz woken))) = 0) by (simpl; destruct md; reflexivity).
    rewrite E. change (mrank (cpcs (base (sstart md n T zz woken)) 0)) with 6. lia.
  Qed.
End Sleep.

(** ---- nobody entitled awake: the caller draws 0 and waits forever ---- *)
Section Hang.
  Variables (n T : Z) (zz : bool).
  Hypothesis Hn : 1 <= n.

  Record Hung (s : sstate) : Prop := {
    H_tot : TotalElements (cit (base s)) = n;
    H_thr : ThreadWakeup (cit (base s)) = T;
    H_last : BlockLast (cit (base s)) = n + 1;
    H_comp : BlocksCompleted (cit (base s)) = 0;
    H_main : (BlockNext (cit (base s)) = 0 /\ cpcs (base s) 0 = CDraw) \/ cpcs (base s) 0 = CWait;
    H_idle : forall c, c <> 0 -> cpcs (base s) c = CIdle;
    H_work : forall c, match wk s c with InWork _ => False | Top => ~ (1 <= c <= T) | _ => True end
  }.

  Lemma hung_step c s : Hung s -> Hung (sstep IndexMode c s).
  Proof.
    intros [H1 H2 H3 H4 H5 H6 H7]. unfold sstep. destruct (Z.eqb_spec c 0) as [->|Hc].
    - unfold cstep. destruct H5 as [[Hb Hm]|Hm]; rewrite Hm.
      + unfold take. rewrite Hb, H3. destruct (0 <? n + 1) eqn:E; [|lia]. simpl.
        constructor; cbn; auto.
        * intros c Hc. rewrite zupd_neq by exact Hc. apply H6, Hc.
      + unfold target. rewrite H4, H1. destruct (0 <? n) eqn:E; [|lia]. constructor; auto.
    - specialize (H7 c) as H7c. destruct (wk s c) as [| |did|] eqn:Ew.
      + constructor; auto.
      + assert (Hset : Hung (wset s c AboutWait)).
        { constructor; cbn; auto. intros c'. unfold zupd. destruct (c' =? c); [exact I|apply H7]. }
        destruct (is_returned _); [exact Hset|]. destruct ((1 <=? c) && (c <=? ThreadWakeup (cit (base s)))) eqn:E; [|exact Hset].
        rewrite H2 in E. exfalso. apply H7c. lia.
      + contradiction.
      + constructor; cbn; auto. intros c'. unfold zupd. destruct (c' =? c); [exact I|apply H7].
  Qed.

  Lemma hung_run sched s : Hung s -> Hung (srun IndexMode s sched).
  Proof. revert s. induction sched as [|c sched IH]; intros s H; simpl; [exact H|]. apply IH, hung_step, H. Qed.

  Lemma hung_start woken : (forall c, 1 <= c <= T -> woken c = false) -> Hung (sstart IndexMode n T zz woken).
  Proof.
    intros Hw. constructor; try reflexivity.
    - left. split; reflexivity.
    - intros c Hc. simpl. destruct (Z.eqb_spec c 0); [contradiction|reflexivity].
    - intros c. simpl. destruct (woken c) eqn:E; [|exact I]. intros H. rewrite Hw in E by exact H. discriminate.
  Qed.

  Lemma never_returns woken sched : (forall c, 1 <= c <= T -> woken c = false) ->
    cpcs (base (srun IndexMode (sstart IndexMode n T zz woken) sched)) 0 <> CReturned.
  Proof.
    intros Hw. pose proof (hung_run sched _ (hung_start woken Hw)) as [_ _ _ _ H5 _ _].
    destruct H5 as [[_ H]|H]; rewrite H; discriminate.
  Qed.
End Hang.

(** ---- which cores can be woken ---- *)
Lemma entitled_woken W t woken : 2 <= t -> t + 1 <= W -> wake_choice W t woken ->
  exists c, 1 <= c <= t /\ woken c = true.
Proof.
  intros Ht HW (Hw & Hk).
  assert (Hp0 : forall c, 1 <= c -> pool_of c = 0 -> c <= 3) by (intros c; unfold pool_of, MAX_WORKER_CHANNEL; lia).
  assert (Hin : In (0, Z.min t 3) (signalled t)).
  { unfold signalled. destruct (t >? 3) eqn:E; [left; f_equal; lia|left; f_equal; lia]. }
  specialize (Hk 0 _ Hin).
  assert (Hsz : pool_size W 0 = 3).
  { unfold pool_size. rewrite (zrange_split 1 4 (W + 1)) by lia. rewrite filter_app.
    assert (F : filter (fun c => pool_of c =? 0) (zrange 4 (W + 1)) = []).
    { apply incl_l_nil. intros x Hx. apply filter_In in Hx. destruct Hx as [Hx1 Hx2]. apply zrange_In in Hx1.
      assert (pool_of x = 0) by lia. pose proof (Hp0 x ltac:(lia) H). lia. }
    rewrite F, app_nil_r. reflexivity. }
  rewrite Hsz in Hk. unfold pool_woken in Hk.
  rewrite (zrange_split 1 4 (W + 1)) in Hk by lia. rewrite filter_app in Hk.
  assert (F : filter (fun c => (pool_of c =? 0) && woken c) (zrange 4 (W + 1)) = []).
  { apply incl_l_nil. intros x Hx. apply filter_In in Hx. destruct Hx as [Hx1 Hx2]. apply zrange_In in Hx1.
    assert (pool_of x = 0) by lia. pose proof (Hp0 x ltac:(lia) H). lia. }
  rewrite F, app_nil_r in Hk. change (zrange 1 4) with [1; 2; 3] in Hk. cbn [filter] in Hk.
  change (pool_of 1 =? 0) with true in Hk. change (pool_of 2 =? 0) with true in Hk.
  change (pool_of 3 =? 0) with true in Hk. cbn [andb] in Hk.
  destruct (woken 1) eqn:E1; [exists 1; split; [lia|exact E1]|].
  destruct (woken 2) eqn:E2; [exists 2; split; [lia|exact E2]|].
  destruct (woken 3) eqn:E3; cbn [length] in Hk; lia.
Qed.

Lemma wake_wrong_core W : 2 <= W -> wake_choice W 1 (fun c => c =? 2).
Proof.
  intros HW. split.
  - intros c Hc. assert (c = 2) by lia. subst c. split; [lia|]. left. reflexivity.
  - intros p k [[= <- <-]|[]]. unfold pool_woken, pool_size.
    assert (H1 : 1 <= Z.of_nat (length (filter (fun c => pool_of c =? 0) (zrange 1 (W + 1))))).
    { assert (Hi : In 1 (filter (fun c => pool_of c =? 0) (zrange 1 (W + 1)))).
      { apply filter_In. split; [apply zrange_In; lia|reflexivity]. }
      destruct (filter _ _); [destruct Hi|cbn [length]; lia]. }
    rewrite Z.min_l by exact H1.
    rewrite (zrange_split 1 3 (W + 1)) by lia. rewrite filter_app.
    assert (F : filter (fun c => (pool_of c =? 0) && (c =? 2)) (zrange 3 (W + 1)) = []).
    { apply incl_l_nil. intros x Hx. apply filter_In in Hx. destruct Hx as [Hx1 Hx2]. apply zrange_In in Hx1. lia. }
    rewrite F, app_nil_r. reflexivity.
Qed.
