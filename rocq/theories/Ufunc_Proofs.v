(** Ufunc_Proofs.v - blocks whose footprints do not meet do not disturb each other, whatever the interleaving. *)
From Verif Require Import Base Threads_Model Threads_Proofs Threads_Live_Proofs Threads_Props Jobs_Model Sort_Model Kernel_Model Ufunc_Model.

(** ---------- footprints ---------- *)
Section Runs.
  Variables (R W : Z -> Prop).
  (** run alone from [m] the program ends in [m'], reads only addresses in R and writes only addresses in W *)
  Fixpoint runs {A} (p : bprog A) (m m' : bytes) : Prop :=
    match p with
    | Ret _ => forall x, m' x = m x
    | Rd x k => R x /\ runs (k (m x)) m m'
    | Wr x v k => W x /\ runs k (zupd m x v) m'
    | Crash | Diverge => False
    end.
  Definition agree (P : Z -> Prop) (m m2 : bytes) : Prop := forall x, P x -> m2 x = m x.

  Lemma runs_agree {A} (p : bprog A) : forall m m' m2, runs p m m' -> agree (fun x => R x \/ W x) m m2 ->
    exists m2', runs p m2 m2' /\ agree (fun x => R x \/ W x) m' m2'.
  Proof.
    induction p as [a|x k IH|x v k IH| |]; intros m m' m2 H Ha; cbn [runs] in *; try contradiction.
    - exists m2. split; [reflexivity|]. intros y Hy. rewrite H. apply Ha, Hy.
    - destruct H as [Hx H]. rewrite (Ha x (or_introl Hx)). destruct (IH (m x) m m' m2 H Ha) as (m2' & E1 & E2).
      exists m2'. auto.
    - destruct H as [Hx H]. destruct (IH (zupd m x v) m' (zupd m2 x v) H) as (m2' & E1 & E2).
      + intros y Hy. unfold zupd. destruct (y =? x); [reflexivity|]. apply Ha, Hy.
      + exists m2'. auto.
  Qed.

  Lemma runs_outside {A} (p : bprog A) : forall m m', runs p m m' -> forall x, ~ W x -> m' x = m x.
  Proof.
    induction p as [a|x k IH|x v k IH| |]; intros m m' H y Hy; cbn [runs] in *; try contradiction.
    - apply H.
    - destruct H as [_ H]. exact (IH _ _ _ H y Hy).
    - destruct H as [Hx H]. rewrite (IH _ _ H y Hy). apply zupd_neq. intros ->. contradiction.
  Qed.
End Runs.

Lemma runs_weaken {A} (R W R' W' : Z -> Prop) (p : bprog A) : (forall x, R x -> R' x) -> (forall x, W x -> W' x) ->
  forall m m', runs R W p m m' -> runs R' W' p m m'.
Proof.
  intros HR HW. induction p as [a|x k IH|x v k IH| |]; intros m m' H; cbn [runs] in *; auto.
  - destruct H. split; auto.
  - destruct H. split; auto.
Qed.

Lemma runs_solo {A} R W (p : bprog A) : forall m m', runs R W p m m' -> exists m2, solo p m = Some m2 /\ forall x, m2 x = m' x.
Proof.
  induction p as [a|x k IH|x v k IH| |]; intros m m' H; cbn [runs solo] in *; try contradiction.
  - exists m. split; [reflexivity|]. intros x. symmetry. apply H.
  - apply IH, H.
  - apply IH, H.
Qed.

(** ---------- the machine against Threads_Model's ---------- *)
Definition pc_sim (p q : pc) : Prop :=
  match q with Work lb len _ => exists k, p = Work lb len k | _ => p = q end.

Section Machine.
  Variables (body : Z -> Z -> bprog unit) (n T : Z) (zz : bool) (m0 : bytes).
  Hypothesis Hn : 0 <= n.
  Hypothesis HT : 0 <= T.
  Notation estep := (step null_ufunc).
  Notation erun := (run null_ufunc).

  (** engine states equal up to history, element memory and progress inside a block *)
  Definition sim (e e' : state unit) : Prop := it e = it e' /\ forall c, pc_sim (pcs e c) (pcs e' c).

  Lemma pc_sim_refl p : pc_sim p p. Proof. destruct p; cbn; eauto. Qed.
  Lemma sim_goto e e' c p q : sim e e' -> pc_sim p q -> sim (goto e c p) (goto e' c q).
  Proof.
    intros [H1 H2] Hp. split; [exact H1|]. intros c'. cbn. unfold zupd. destruct (c' =? c); [exact Hp|apply H2].
  Qed.
  Lemma sim_item e e' i : sim e e' -> sim (with_item e i) (with_item e' i).
  Proof. intros [H1 H2]. split; [reflexivity|exact H2]. Qed.

  (** outside a block both make the same step *)
  Lemma sim_step c e e' : sim e e' -> (forall lb len k, pcs e' c <> Work lb len k) -> sim (estep c e) (estep c e').
  Proof.
    intros S Hw. pose proof S as [Hi Hp]. pose proof (Hp c) as Hc. unfold step.
    destruct (pcs e' c) as [|i sl|lb len|lb len k|lb| |i| |] eqn:E'; cbn [pc_sim] in Hc; rewrite ?Hc; rewrite ?Hi.
    - destruct ((1 <=? c) && (c <=? ThreadWakeup (it e'))); [|exact S]. apply sim_goto; [exact S|apply pc_sim_refl].
    - destruct (CurrentBlock (WorkerChannel (it e') i) <? LastBlock (WorkerChannel (it e') i)).
      + apply sim_goto; [now apply sim_item|apply pc_sim_refl].
      + apply sim_goto; [now apply sim_item|apply pc_sim_refl].
    - apply sim_goto; [now apply sim_item|apply pc_sim_refl].
    - exfalso. exact (Hw lb len k eq_refl).
    - apply sim_goto; [now apply sim_item|apply pc_sim_refl].
    - destruct (BlockLast (it e') <=? BlockNext (it e')); apply sim_goto; try exact S; apply pc_sim_refl.
    - destruct (i <=? ThreadWakeup (it e')); [destruct (i =? c)|]; apply sim_goto; try exact S; apply pc_sim_refl.
    - destruct (BlocksCompleted (it e') <? BlockLast (it e')); [exact S|]. apply sim_goto; [exact S|apply pc_sim_refl].
    - exact S.
  Qed.

  (** inside a block Threads_Model reaches Finish after the remaining element steps *)
  Lemma sim_finish c lb len : forall d k e e', d = Z.to_nat (len - k) -> sim e e' -> pcs e c = Work lb len k -> k <= len ->
    exists l, sim (erun e l) (goto e' c (Finish lb)).
  Proof.
    induction d as [|d IH]; intros k e e' Ed S H Hk.
    - exists [c]. cbn. unfold step. rewrite H. destruct (Z.ltb_spec k len); [lia|].
      apply sim_goto; [exact S|reflexivity].
    - set (g := estep c e).
      assert (Hg : pcs g c = Work lb len (k + 1)).
      { unfold g, step. rewrite H. destruct (Z.ltb_spec k len); [|lia]. cbn. apply zupd_eq. }
      assert (Sg : sim g (goto e' c (Work lb len 0))).
      { unfold g, step. rewrite H. destruct (Z.ltb_spec k len); [|lia]. split; [exact (proj1 S)|].
        intros c'. cbn. unfold zupd. destruct (c' =? c); [cbn; eauto|apply S]. }
      destruct (IH (k + 1) g _ ltac:(lia) Sg Hg ltac:(lia)) as (l & Hl).
      exists (c :: l). cbn [run fold_left]. fold (erun g l). destruct Hl as [L1 L2]. split; [exact L1|].
      intros c'. specialize (L2 c'). revert L2. cbn. unfold zupd. destruct (c' =? c); auto.
  Qed.

  (** every engine state of the byte machine is one of Threads_Model, up to [sim] *)
  Definition reachable (e : state unit) : Prop := exists l, sim (erun (start n T zz (fun _ => tt)) l) e.

  Lemma reachable_step c s : reachable (eng s) -> reachable (eng (ustep body c s)).
  Proof.
    intros (l & S). set (e := erun (start n T zz (fun _ => tt)) l) in *.
    assert (Happ : forall l', erun (start n T zz (fun _ => tt)) (l ++ l') = erun e l').
    { intros l'. unfold e, run. apply fold_left_app. }
    assert (Hstep : (forall lb len k, pcs (eng s) c <> Work lb len k) -> reachable (estep c (eng s))).
    { intros Hw. exists (l ++ [c]). rewrite Happ. cbn. apply sim_step; assumption. }
    unfold ustep. destruct (pcs (eng s) c) as [|i sl|lb len|lb len k|lb| |i| |] eqn:E; try (apply Hstep; intros; discriminate).
    destruct (urem s c) as [a|x f|x v f| |]; cbn [eng]; try (exists l; exact S).
    pose proof (proj2 S c) as Hc. rewrite E in Hc. cbn in Hc. destruct Hc as [k' Hk'].
    destruct (reach_inv null_ufunc n T zz HT (fun _ => tt) l) as (d & b & I). fold e in I.
    pose proof (I_pc _ _ _ _ _ _ I c) as Hpc. rewrite Hk' in Hpc. cbn in Hpc.
    destruct (sim_finish c lb len _ k' e (eng s) eq_refl S Hk' ltac:(lia)) as (l' & H').
    exists (l ++ l'). rewrite Happ. exact H'.
  Qed.

  (** what [Inv] says about a reachable engine state *)
  Notation BL := (BL n). Notation blen := (blen n). Notation Drawn := (Drawn n T zz).
  Definition held (e : state unit) (lb : Z) : Prop := exists c, holds (pcs e c) lb.

  Lemma sim_holds e e' c lb : sim e e' -> (holds (pcs e c) lb <-> holds (pcs e' c) lb).
  Proof.
    intros [_ H]. specialize (H c). destruct (pcs e' c); cbn in H; try (rewrite H; reflexivity).
    destruct H as [k' ->]. reflexivity.
  Qed.
  Lemma sim_drawn e e' lb : sim e e' -> (Drawn e lb <-> Drawn e' lb).
  Proof. intros [H _]. unfold Threads_Proofs.Drawn, cur. rewrite H. reflexivity. Qed.

  Lemma reachable_facts e : reachable e ->
    (forall c lb, holds (pcs e c) lb -> Drawn e lb) /\
    (forall c c' lb, holds (pcs e c) lb -> holds (pcs e c') lb -> c = c') /\
    (forall c lb len, pcs e c = Bump lb len -> len = blen lb) /\
    (forall c lb len k, pcs e c = Work lb len k -> len = blen lb) /\
    (forall c, pcs e c = Returned -> forall lb, 0 <= lb < BL -> Drawn e lb /\ ~ held e lb).
  Proof.
    intros (l & S). destruct (reach_inv null_ufunc n T zz HT (fun _ => tt) l) as (d & b & I).
    set (e0 := erun (start n T zz (fun _ => tt)) l) in *.
    split; [|split; [|split; [|split]]].
    - intros c lb H. apply (sim_drawn _ _ _ S). apply (I_held _ _ _ _ _ _ I c). apply (sim_holds _ _ _ _ S). exact H.
    - intros c c' lb H H'. apply (I_uniq _ _ _ _ _ _ I c c' lb); apply (sim_holds _ _ _ _ S); assumption.
    - intros c lb len H. pose proof (proj2 S c) as Hc. rewrite H in Hc. cbn in Hc.
      pose proof (I_pc _ _ _ _ _ _ I c) as Hp. rewrite Hc in Hp. apply Hp.
    - intros c lb len k H. pose proof (proj2 S c) as Hc. rewrite H in Hc. cbn in Hc. destruct Hc as [k' Hc].
      pose proof (I_pc _ _ _ _ _ _ I c) as Hp. rewrite Hc in Hp. apply Hp.
    - intros c H lb Hlb. pose proof (proj2 S c) as Hc. rewrite H in Hc. cbn in Hc.
      pose proof (inv_returned_all_done _ _ _ _ _ _ _ I Hc lb Hlb) as Hd. split.
      + apply (sim_drawn _ _ _ S). apply (I_done_dr _ _ _ _ _ _ I), Hd.
      + intros [c' Hh]. apply (sim_holds _ _ _ _ S) in Hh. exact (I_done_held _ _ _ _ _ _ I _ _ Hh Hd).
  Qed.

  (** how one engine step moves blocks *)
  Lemma step_drawn c e lb : reachable e -> Drawn (estep c e) lb -> Drawn e lb \/ exists len, pcs (estep c e) c = Bump lb len.
  Proof.
    intros (l & S) H. destruct (reach_inv null_ufunc n T zz HT (fun _ => tt) l) as (d & b & I).
    set (e0 := erun (start n T zz (fun _ => tt)) l) in *.
    destruct (I_static _ _ _ _ _ _ I) as (S1 & S2 & S3 & S4 & S5 & S6). rewrite (proj1 S) in S1, S2, S3, S4, S5, S6.
    destruct H as [H1 H2]. revert H2. unfold step.
    destruct (pcs e c) as [|i sl|lb1 len|lb1 len k|lb1| |i| |] eqn:E.
    all: try (intros H2; left; split; [exact H1|]; revert H2;
      repeat match goal with |- context [if ?b then _ else _] => destruct b end; intros H2; exact H2).
    pose proof (proj2 S c) as Hc. rewrite E in Hc. cbn in Hc.
    pose proof (I_pc _ _ _ _ _ _ I c) as Hp. rewrite Hc in Hp. destruct Hp as (Hp1 & Hp2 & _).
    fold (cur e i). rewrite S6.
    assert (Hcur : forall p, cur (goto (with_item e (set_cur (it e) i (cur e i + 1))) c p) (lb mod th T)
       = if lb mod th T =? i then cur e i + 1 else cur e (lb mod th T)).
    { intros p. unfold cur. cbn. unfold zupd. destruct (lb mod th T =? i); reflexivity. }
    destruct (raw_bound n T HT zz lb H1) as (R1 & R2 & R3).
    destruct (cur e i <? clast n T i) eqn:Ec; rewrite Hcur; intros H2.
    - destruct (Z.eqb_spec (lb mod th T) i) as [Ei|Ei]; [|left; split; assumption].
      destruct (Z.eq_dec (raw n T zz lb) (cur e i)) as [Er|Er].
      + right. eexists. cbn. rewrite zupd_eq. f_equal. unfold logical_block. rewrite S2, S5, S6.
        rewrite Ei, Er in R3. unfold lblock in R3. exact R3.
      + left. split; [exact H1|]. rewrite Ei. lia.
    - left. split; [exact H1|]. destruct (Z.eqb_spec (lb mod th T) i) as [Ei|Ei]; [|exact H2].
      rewrite Ei in *. lia.
  Qed.
  Lemma step_drawn_mono c e lb : Drawn e lb -> Drawn (estep c e) lb.
  Proof. intros [H1 H2]. split; [exact H1|]. pose proof (step_cur null_ufunc c e (lb mod th T)). lia. Qed.

  (** ---------- the invariant ---------- *)
  Variables (R W : Z -> Z -> Prop) (fin : Z -> bytes).     (* footprint of a block; memory after running it alone *)
  Hypothesis Hruns : forall lb, 0 <= lb < BL -> runs (R lb) (W lb) (body lb (blen lb)) m0 (fin lb).
  Hypothesis Hsep : forall lb lb' x, 0 <= lb < BL -> 0 <= lb' < BL -> lb <> lb' -> W lb x -> ~ R lb' x /\ ~ W lb' x.

  Definition final (m : bytes) (lb : Z) : Prop := forall x, W lb x -> m x = fin lb x.
  Definition fresh (m : bytes) (lb : Z) : Prop := forall x, W lb x -> m x = m0 x.
  Record UInv (s : ust) : Prop := {
    U_eng : reachable (eng s);
    U_nofault : ufault s = false;
    U_out : forall x, umem s x = m0 x \/ exists lb, 0 <= lb < BL /\ W lb x;
    U_undrawn : forall lb, 0 <= lb < BL -> ~ Drawn (eng s) lb -> fresh (umem s) lb;
    U_bump : forall c lb len, pcs (eng s) c = Bump lb len -> fresh (umem s) lb;
    U_work : forall c lb len k, pcs (eng s) c = Work lb len k ->
      exists m', runs (R lb) (W lb) (urem s c) (umem s) m' /\ final m' lb;
    U_finish : forall c lb, pcs (eng s) c = Finish lb -> final (umem s) lb;
    U_done : forall lb, Drawn (eng s) lb -> ~ held (eng s) lb -> final (umem s) lb
  }.

  Lemma uinv_start : UInv (ustart n T zz m0).
  Proof.
    assert (HD : forall lb, ~ Drawn (start n T zz (fun _ => tt)) lb).
    { intros lb [Hlb Hr]. destruct (raw_bound n T HT zz lb Hlb) as (_ & Hb & _). unfold cur in Hr; simpl in Hr. lia. }
    constructor; cbn [ustart eng umem urem ufault].
    - exists []. split; [reflexivity|]. intros c. apply pc_sim_refl.
    - reflexivity.
    - intros x. left. reflexivity.
    - intros lb _ _ x _. reflexivity.
    - intros c lb len H. simpl in H. destruct (c =? 0); discriminate.
    - intros c lb len k H. simpl in H. destruct (c =? 0); discriminate.
    - intros c lb H. simpl in H. destruct (c =? 0); discriminate.
    - intros lb H. exfalso. exact (HD lb H).
  Qed.

  Lemma W_valid_final m m' lb : (forall x, W lb x -> m' x = m x) -> final m lb -> final m' lb.
  Proof. intros H F x Hx. rewrite H by exact Hx. apply F, Hx. Qed.

  (** an engine step that keeps memory *)
  Lemma uinv_engine c s (rem' : Z -> bprog unit) : UInv s ->
    (forall lb len k, pcs (eng s) c <> Work lb len k) ->
    (forall c', c' <> c -> rem' c' = urem s c') ->
    (forall lb len, pcs (eng s) c = Bump lb len -> rem' c = body lb len) ->
    UInv (mkU (estep c (eng s)) (umem s) rem' (ufault s)).
  Proof.
    intros I Hw Hr Hb. destruct I. set (e := eng s) in *. set (e' := estep c e).
    assert (Hreach : reachable e').
    { destruct U_eng0 as (l & S). exists (l ++ [c]). unfold run. rewrite fold_left_app. cbn. apply sim_step; assumption. }
    destruct (reachable_facts e U_eng0) as (F1 & F2 & F3 & F4 & _).
    assert (Hother : forall c', c' <> c -> pcs e' c' = pcs e c') by (intros c' Hc'; apply step_other_pc; exact Hc').
    assert (Hbump : forall lb len, pcs e' c = Bump lb len -> ~ Drawn e lb /\ 0 <= lb < BL).
    { intros lb len H. destruct (reachable_facts e' Hreach) as (G1 & _).
      assert (HD : Drawn e' lb) by (apply (G1 c); rewrite H; reflexivity).
      split; [|apply HD].
      (* drawn at this step: from the static facts *)
      destruct U_eng0 as (l & S). destruct (reach_inv null_ufunc n T zz HT (fun _ => tt) l) as (d & b & I0).
      destruct (I_static _ _ _ _ _ _ I0) as (S1 & S2 & S3 & S4 & S5 & S6). rewrite (proj1 S) in S1, S2, S3, S4, S5, S6. fold e in S1, S2, S3, S4, S5, S6.
      unfold e', step in H. destruct (pcs e c) as [|i sl|lb1 len1|lb1 len1 k|lb1| |i| |] eqn:E;
        try (repeat match type of H with context [if ?b then _ else _] => destruct b eqn:? end; cbn in H; rewrite ?zupd_eq in H; try congruence; unfold stop in H;
          repeat match type of H with context [if ?b then _ else _] => destruct b end; congruence).
      - fold (cur e i) in H. rewrite S6 in H. destruct (cur e i <? clast n T i) eqn:Ec.
        + cbn in H. rewrite zupd_eq in H. injection H as Hlb _. intros [_ HR].
          pose proof (proj2 S c) as Hc. fold e in Hc. rewrite E in Hc. cbn in Hc.
          pose proof (I_pc _ _ _ _ _ _ I0 c) as Hp. rewrite Hc in Hp. destruct Hp as (Hp1 & Hp2 & _).
          pose proof (I_cur _ _ _ _ _ _ I0 i) as Hc0. unfold cur in Hc0. rewrite (proj1 S) in Hc0. fold e (cur e i) in Hc0.
          destruct (lblock_spec n T HT zz i (cur e i)) as (L1 & L2 & L3); [unfold th; lia|lia|].
          assert (El : lblock n T zz i (cur e i) = lb) by (rewrite <- Hlb; unfold lblock, logical_block; rewrite S2, S5, S6; reflexivity).
          rewrite El in *. rewrite L2, L3 in HR. lia.
        + cbn in H. rewrite zupd_eq in H. destruct sl; discriminate. }
    assert (Hwork : forall lb len k, pcs e' c = Work lb len k -> pcs e c = Bump lb len).
    { intros lb len k H. unfold e', step in H. destruct (pcs e c) as [|i sl|lb1 len1|lb1 len1 k1|lb1| |i| |] eqn:E;
        try (repeat match type of H with context [if ?b then _ else _] => destruct b eqn:? end; cbn in H; rewrite ?zupd_eq in H; try congruence; unfold stop in H;
          repeat match type of H with context [if ?b then _ else _] => destruct b end; congruence).
    }
    assert (Hfinish : forall lb, pcs e' c = Finish lb -> False).
    { intros lb H. unfold e', step in H. destruct (pcs e c) as [|i sl|lb1 len1|lb1 len1 k1|lb1| |i| |] eqn:E;
        try (repeat match type of H with context [if ?b then _ else _] => destruct b eqn:? end; cbn in H; rewrite ?zupd_eq in H; try congruence; unfold stop in H;
          repeat match type of H with context [if ?b then _ else _] => destruct b end; congruence).
    }
    assert (Hrel : forall lb, holds (pcs e c) lb -> ~ holds (pcs e' c) lb -> pcs e c = Finish lb).
    { intros lb H H'. unfold e', step in H'. destruct (pcs e c) as [|i sl|lb1 len1|lb1 len1 k1|lb1| |i| |] eqn:E; cbn in H; try contradiction.
      - subst lb1. exfalso. apply H'. cbn. rewrite zupd_eq. reflexivity.
      - exfalso. exact (Hw _ _ _ eq_refl).
      - subst. reflexivity. }
    constructor; cbn [eng umem urem ufault]; try assumption.
    - intros lb Hlb HD. apply U_undrawn0; [exact Hlb|]. intros D. apply HD. apply step_drawn_mono, D.
    - intros c' lb len H. destruct (Z.eq_dec c' c) as [->|Hne].
      + destruct (Hbump lb len H) as [HD Hlb]. apply U_undrawn0; assumption.
      + apply (U_bump0 c' lb len). rewrite <- Hother by exact Hne. exact H.
    - intros c' lb len k H. destruct (Z.eq_dec c' c) as [->|Hne].
      + pose proof (Hwork lb len k H) as HB. rewrite (Hb lb len HB). rewrite (F3 c lb len HB).
        assert (Hlb : 0 <= lb < BL) by (apply (F1 c lb); rewrite HB; reflexivity).
        destruct (runs_agree (R lb) (W lb) (body lb (blen lb)) m0 (fin lb) (umem s) (Hruns lb Hlb)) as (m' & E1 & E2).
        * intros x Hx. destruct (U_out0 x) as [E|(lb' & Hlb' & Hx')]; [exact E|].
          destruct (Z.eq_dec lb' lb) as [->|Hne]; [exact (U_bump0 c lb len HB x Hx')|].
          exfalso. destruct (Hsep lb' lb x Hlb' Hlb Hne Hx') as [N1 N2]. tauto.
        * exists m'. split; [exact E1|]. intros x Hx. apply E2. right. exact Hx.
      + rewrite Hr by exact Hne. apply (U_work0 c' lb len k). rewrite <- Hother by exact Hne. exact H.
    - intros c' lb H. destruct (Z.eq_dec c' c) as [->|Hne]; [exfalso; exact (Hfinish lb H)|].
      apply (U_finish0 c' lb). rewrite <- Hother by exact Hne. exact H.
    - intros lb HD HN.
      assert (HD0 : Drawn e lb).
      { destruct (step_drawn c e lb U_eng0 HD) as [H|[len H]]; [exact H|].
        exfalso. apply HN. exists c. fold e' in H. rewrite H. reflexivity. }
      assert (Hdec : holds (pcs e c) lb \/ ~ holds (pcs e c) lb).
      { destruct (pcs e c); cbn; try (right; tauto); try match goal with |- ?a = ?b \/ _ => destruct (Z.eq_dec a b); tauto end. }
      destruct Hdec as [Hh|Hh].
      + assert (HF : pcs e c = Finish lb) by (apply Hrel; [exact Hh|intros H; apply HN; exists c; exact H]).
        apply (U_finish0 c lb HF).
      + apply U_done0; [exact HD0|]. intros [c' H]. destruct (Z.eq_dec c' c) as [->|Hne]; [contradiction|].
        apply HN. exists c'. rewrite Hother by exact Hne. exact H.
  Qed.

  Lemma uinv_step c s : UInv s -> UInv (ustep body c s).
  Proof.
    intros I. pose proof (reachable_step c s (U_eng _ I)) as Hreach. revert Hreach. unfold ustep.
    destruct (pcs (eng s) c) as [|i sl|lb len|lb len k|lb| |i| |] eqn:E;
      try (intros _; apply uinv_engine; [exact I|rewrite E; discriminate|reflexivity|rewrite E; discriminate]).
    { intros _. apply uinv_engine; [exact I|rewrite E; discriminate|intros c' Hc'; apply zupd_neq; exact Hc'|].
      rewrite E. intros lb1 len1 H. injection H as <- <-. apply zupd_eq. }
    intros Hreach.
    destruct (reachable_facts (eng s) (U_eng _ I)) as (F1 & F2 & F3 & F4 & _).
    assert (Hh : holds (pcs (eng s) c) lb) by (rewrite E; reflexivity).
    assert (Hlb : 0 <= lb < BL) by apply (F1 c lb Hh).
    destruct (U_work _ I c lb len k E) as (m' & Hr & Hf).
    destruct I. destruct (urem s c) as [a|x f|x v f| |] eqn:Er; cbn [runs] in Hr; try contradiction.
    - (* the loop has ended *)
      constructor; cbn [eng umem urem ufault]; try assumption.
      + intros c' lb' len' H. cbn in H. unfold zupd in H. destruct (c' =? c); [discriminate|]. exact (U_bump0 _ _ _ H).
      + intros c' lb' len' k' H. cbn in H. unfold zupd in H. destruct (c' =? c); [discriminate|]. exact (U_work0 _ _ _ _ H).
      + intros c' lb' H. cbn in H. unfold zupd in H. destruct (c' =? c); [|exact (U_finish0 _ _ H)].
        injection H as <-. intros x Hx. rewrite <- Hr. apply Hf, Hx.
      + intros lb' HD HN. apply U_done0; [exact HD|]. intros [c' H]. apply HN.
        exists c'. cbn. unfold zupd. destruct (Z.eqb_spec c' c) as [->|_]; [|exact H]. rewrite E in H. exact H.
    - (* a load *)
      constructor; cbn [eng umem urem ufault]; try assumption.
      intros c' lb' len' k' H. destruct (Z.eq_dec c' c) as [->|Hne].
      + rewrite E in H. injection H as <- <- <-. rewrite zupd_eq. exists m'. split; [apply Hr|exact Hf].
      + rewrite zupd_neq by exact Hne. exact (U_work0 _ _ _ _ H).
    - (* a store *)
      destruct Hr as [Hx Hr].
      assert (Hoth : forall lb', 0 <= lb' < BL -> lb' <> lb -> ~ R lb' x /\ ~ W lb' x).
      { intros lb' Hlb' Hne. apply (Hsep lb lb' x); auto. }
      assert (Hkeep : forall lb' y, 0 <= lb' < BL -> lb' <> lb -> W lb' y -> zupd (umem s) x v y = umem s y).
      { intros lb' y Hlb' Hne Hy. apply zupd_neq. intros ->. destruct (Hoth lb' Hlb' Hne) as [_ N]. contradiction. }
      assert (Hnl : forall c' lb', holds (pcs (eng s) c') lb' -> c' <> c -> lb' <> lb).
      { intros c' lb' H Hne ->. apply Hne. exact (F2 c' c lb H Hh). }
      constructor; cbn [eng umem urem ufault]; try assumption.
      + intros y. unfold zupd. destruct (Z.eqb_spec y x) as [->|_]; [right; exists lb; auto|apply U_out0].
      + intros lb' Hlb' HD y Hy. rewrite (Hkeep lb'); try assumption; [apply (U_undrawn0 lb'); assumption|].
        intros ->. apply HD, (F1 c), Hh.
      + intros c' lb' len' H y Hy. assert (Hh' : holds (pcs (eng s) c') lb') by (rewrite H; reflexivity).
        rewrite (Hkeep lb'); try assumption.
        * exact (U_bump0 _ _ _ H y Hy).
        * apply (F1 c'), Hh'.
        * apply (Hnl c'); [exact Hh'|]. intros ->. congruence.
      + intros c' lb' len' k' H. destruct (Z.eq_dec c' c) as [->|Hne].
        * rewrite E in H. injection H as <- <- <-. rewrite zupd_eq. exists m'. split; assumption.
        * rewrite zupd_neq by exact Hne. destruct (U_work0 _ _ _ _ H) as (m1 & Q1 & Q2).
          assert (Hh' : holds (pcs (eng s) c') lb') by (rewrite H; reflexivity).
          assert (Hlb' : 0 <= lb' < BL) by apply (F1 c' lb' Hh').
          pose proof (Hnl c' lb' Hh' Hne) as Hn'.
          destruct (runs_agree (R lb') (W lb') (urem s c') (umem s) m1 (zupd (umem s) x v) Q1) as (m2 & P1 & P2).
          { intros y Hy. apply zupd_neq. intros ->. destruct (Hoth lb' Hlb' Hn'). tauto. }
          exists m2. split; [exact P1|]. intros y Hy. rewrite (P2 y (or_intror Hy)). apply Q2, Hy.
      + intros c' lb' H. assert (Hh' : holds (pcs (eng s) c') lb') by (rewrite H; reflexivity).
        apply (W_valid_final (umem s)); [|exact (U_finish0 _ _ H)].
        intros y Hy. apply (Hkeep lb'); [apply (F1 c'), Hh'| |exact Hy].
        apply (Hnl c'); [exact Hh'|]. intros ->. congruence.
      + intros lb' HD HN. apply (W_valid_final (umem s)); [|apply U_done0; assumption].
        intros y Hy. apply (Hkeep lb'); [apply HD| |exact Hy]. intros ->. apply HN. exists c. exact Hh.
  Qed.

  Lemma uinv_run sched : UInv (urun body (ustart n T zz m0) sched).
  Proof.
    unfold urun. generalize uinv_start. generalize (ustart n T zz m0). induction sched as [|c l IH]; intros s I; [exact I|].
    cbn [fold_left]. apply IH, uinv_step, I.
  Qed.

  (** the rule *)
  Lemma threaded_rule sched : let s := urun body (ustart n T zz m0) sched in
    ufault s = false /\
    (pcs (eng s) 0 = Returned ->
      (forall lb, 0 <= lb < BL -> final (umem s) lb) /\
      (forall x, (forall lb, 0 <= lb < BL -> ~ W lb x) -> umem s x = m0 x)).
  Proof.
    intros s. pose proof (uinv_run sched) as I. fold s in I. split; [apply (U_nofault _ I)|].
    intros Hr. destruct (reachable_facts (eng s) (U_eng _ I)) as (_ & _ & _ & _ & F5). split.
    - intros lb Hlb. destruct (F5 0 Hr lb Hlb) as [HD HN]. apply (U_done _ I); assumption.
    - intros x Hx. destruct (U_out _ I x) as [E|(lb & Hlb & H)]; [exact E|]. exfalso. exact (Hx lb Hlb H).
  Qed.

  (** ---------- the call can always finish ---------- *)
  Lemma finish_work c lb len k : forall (p : bprog unit) m' s, urem s c = p -> pcs (eng s) c = Work lb len k ->
    runs (R lb) (W lb) p (umem s) m' -> exists r, eng (urun body s (repeat c r)) = goto (eng s) c (Finish lb).
  Proof.
    induction p as [a|x f IH|x v f IH| |]; intros m' s Ep Hc Hr; cbn [runs] in Hr; try contradiction.
    - exists 1%nat. cbn. unfold ustep. rewrite Hc, Ep. reflexivity.
    - destruct (IH (umem s x) m' (ustep body c s)) as (r & Hr').
      + unfold ustep. rewrite Hc, Ep. cbn. apply zupd_eq.
      + unfold ustep. rewrite Hc, Ep. exact Hc.
      + unfold ustep. rewrite Hc, Ep. apply Hr.
      + exists (S r). cbn [repeat urun fold_left]. fold (urun body (ustep body c s) (repeat c r)). rewrite Hr'.
        unfold ustep. rewrite Hc, Ep. reflexivity.
    - destruct (IH m' (ustep body c s)) as (r & Hr').
      + unfold ustep. rewrite Hc, Ep. cbn. apply zupd_eq.
      + unfold ustep. rewrite Hc, Ep. exact Hc.
      + unfold ustep. rewrite Hc, Ep. apply Hr.
      + exists (S r). cbn [repeat urun fold_left]. fold (urun body (ustep body c s) (repeat c r)). rewrite Hr'.
        unfold ustep. rewrite Hc, Ep. reflexivity.
  Qed.
  Lemma uinv_more l : forall s, UInv s -> UInv (urun body s l).
  Proof. induction l as [|c l IH]; intros s I; [exact I|]. cbn [urun fold_left]. apply IH, uinv_step, I. Qed.
  Lemma urun_app l1 l2 s : urun body s (l1 ++ l2) = urun body (urun body s l1) l2.
  Proof. apply fold_left_app. Qed.

  Lemma simulate l : forall e s, UInv s -> sim e (eng s) -> exists more, sim (erun e l) (eng (urun body s more)).
  Proof.
    induction l as [|c l IH]; intros e s I S; [exists []; exact S|].
    assert (Step : exists m1, sim (estep c e) (eng (urun body s m1))).
    { assert (Other : (forall lb len k, pcs (eng s) c <> Work lb len k) -> eng (ustep body c s) = estep c (eng s)).
      { intros Hw. unfold ustep. destruct (pcs (eng s) c) eqn:E; try reflexivity. exfalso. eapply Hw. reflexivity. }
      destruct (pcs (eng s) c) as [|i sl|lb len|lb len k|lb| |i| |] eqn:E.
      all: try (exists [c]; cbn; rewrite Other by (intros; discriminate); apply sim_step; [exact S|intros; rewrite E; discriminate]).
      pose proof (proj2 S c) as Hc. rewrite E in Hc. cbn in Hc. destruct Hc as [k' Hk']. unfold step. rewrite Hk'.
      destruct (k' <? len).
      - exists []. cbn [urun fold_left]. split; [exact (proj1 S)|]. intros c'. cbn. unfold zupd. destruct (Z.eqb_spec c' c) as [->|]; [rewrite E; cbn; eauto|apply S].
      - destruct (U_work _ I _ _ _ _ E) as (m' & Hr & _). destruct (finish_work c lb len k _ m' s eq_refl E Hr) as (r & Er).
        exists (repeat c r). rewrite Er. apply sim_goto; [exact S|reflexivity]. }
    destruct Step as (m1 & S1). destruct (IH _ _ (uinv_more m1 s I) S1) as (m2 & S2).
    exists (m1 ++ m2). rewrite urun_app. exact S2.
  Qed.

  Lemma ends s : UInv s -> exists more, pcs (eng (urun body s more)) 0 = Returned.
  Proof.
    intros I. destruct (U_eng _ I) as (l & S). set (k := Z.to_nat (BL * K T + 2 * T + 8)).
    set (s2 := concat (repeat (zrange 0 (T + 1)) (Z.to_nat 16387))).
    assert (HR : pcs (erun (start n T zz (fun _ => tt)) ((l ++ repeat 0 k) ++ s2 ++ [0])) 0 = Returned).
    { apply fair_returns; try assumption.
      - assert (Happ : forall a b, occ 0 (a ++ b) = occ 0 a + occ 0 b) by (intros; apply occ_app).
        rewrite Happ. pose proof (occ_nonneg 0 l). assert (Hk : forall j, occ 0 (repeat 0 j) = Z.of_nat j).
        { induction j as [|j IHj]; [reflexivity|]. cbn [repeat]. rewrite occ_cons, IHj. change (0 =? 0) with true. lia. }
        rewrite Hk. unfold k. lia.
      - intros c Hc. unfold s2. rewrite occ_concat_repeat, occ_zrange by lia. rewrite CH_val. lia. }
    destruct (simulate ((repeat 0 k) ++ s2 ++ [0]) _ s I S) as (more & Sm).
    exists more. destruct Sm as [_ Sm]. specialize (Sm 0).
    rewrite <- app_assoc in HR. unfold run in HR, Sm. rewrite fold_left_app in HR. rewrite HR in Sm.
    destruct (pcs (eng (urun body s more)) 0); cbn in Sm; try congruence. destruct Sm as [k' Sk]. discriminate Sk.
  Qed.
  Lemma can_return sched : exists more, pcs (eng (urun body (ustart n T zz m0) (sched ++ more))) 0 = Returned.
  Proof. destruct (ends _ (uinv_run sched)) as (more & H). exists more. rewrite urun_app. exact H. Qed.

  (** ---------- store buffers are invisible ---------- *)
  Definition busy (p : pc) (lb : Z) : Prop := match p with Work lb' _ _ | Finish lb' => lb' = lb | _ => False end.
  Lemma busy_holds p lb : busy p lb -> holds p lb. Proof. destruct p; cbn; auto; contradiction. Qed.
  Record Rel (t : tst) (s : ust) : Prop := {
    R_eng : eng (tu t) = eng s; R_rem : urem (tu t) = urem s; R_fault : ufault (tu t) = ufault s;
    R_in : forall c x v, In (x, v) (tbuf t c) -> exists lb, busy (pcs (eng s) c) lb /\ W lb x;
    R_new : forall c x v, newest (tbuf t c) x = Some v -> umem s x = v;
    R_old : forall x, (forall c, newest (tbuf t c) x = None) -> umem s x = umem (tu t) x
  }.
  Lemma newest_In l x v : newest l x = Some v -> In (x, v) l.
  Proof.
    induction l as [|[y w] l IH]; cbn [newest]; [discriminate|]. destruct (newest l x) as [w'|]; [intros [= ->]; right; now apply IH|].
    destruct (Z.eqb_spec x y) as [->|]; [intros [= ->]; now left|discriminate].
  Qed.
  Lemma newest_snoc l x v y : newest (l ++ [(x, v)]) y = if y =? x then Some v else newest l y.
  Proof.
    induction l as [|[z w] l IH]; cbn [newest app]; [destruct (y =? x); reflexivity|]. rewrite IH. destruct (y =? x); [reflexivity|]. reflexivity.
  Qed.
  (** another thread's buffer does not touch a block's footprint *)
  Lemma other_buffer t s c c' lb x : UInv s -> Rel t s -> busy (pcs (eng s) c) lb -> R lb x \/ W lb x -> c' <> c -> newest (tbuf t c') x = None.
  Proof.
    intros I Q Hb Hx Hne. destruct (newest (tbuf t c') x) as [v|] eqn:E; [|reflexivity]. exfalso. destruct (R_in _ _ Q _ _ _ (newest_In _ _ _ E)) as (lb' & Hb' & Hw').
    destruct (reachable_facts (eng s) (U_eng _ I)) as (F1 & F2 & _). pose proof (F1 c lb (busy_holds _ _ Hb)) as [H1 _]. pose proof (F1 c' lb' (busy_holds _ _ Hb')) as [H2 _].
    assert (lb' <> lb) by (intros ->; apply Hne; exact (F2 _ _ lb (busy_holds _ _ Hb') (busy_holds _ _ Hb))).
    destruct (Hsep lb' lb x H2 H1 ltac:(assumption) Hw'). tauto.
  Qed.

  Lemma rel_start : Rel (tstart n T zz m0) (ustart n T zz m0).
  Proof. constructor; try reflexivity; cbn; try discriminate. contradiction. Qed.

  Lemma rel_commit c t s : Rel t s -> Rel (tcommit c t) s.
  Proof.
    intros Q. unfold tcommit. destruct (tbuf t c) as [|[x v] l] eqn:E; [exact Q|]. destruct Q. constructor; cbn [tu tbuf set_mem eng urem ufault umem]; try assumption.
    - intros c' y w H. unfold zupd in H. destruct (Z.eqb_spec c' c) as [->|]; [|exact (R_in0 _ _ _ H)]. apply (R_in0 c y w). rewrite E. now right.
    - intros c' y w H. unfold zupd in H. destruct (Z.eqb_spec c' c) as [->|]; [|exact (R_new0 _ _ _ H)]. apply (R_new0 c y w). rewrite E. cbn [newest]. now rewrite H.
    - intros y H. destruct (Z.eqb_spec y x) as [->|Hne].
      + rewrite zupd_eq. apply (R_new0 c x v). rewrite E. cbn [newest]. specialize (H c). rewrite zupd_eq in H. rewrite H. now rewrite Z.eqb_refl.
      + rewrite zupd_neq by exact Hne. apply R_old0. intros c'. pose proof (H c') as H'. unfold zupd in H'. destruct (Z.eqb_spec c' c) as [Ec|Ec]; [rewrite Ec in *|exact H'].
        rewrite E. cbn [newest]. rewrite H'. destruct (Z.eqb_spec y x); [contradiction|reflexivity].
  Qed.

  (** a step that does not load or store, of a thread whose buffer is empty or which stays in its block *)
  Lemma rel_same c t s : Rel t s -> umem (ustep body c s) = umem s -> eng (ustep body c (tu t)) = eng (ustep body c s) -> umem (ustep body c (tu t)) = umem (tu t) ->
    urem (ustep body c (tu t)) = urem (ustep body c s) -> ufault (ustep body c (tu t)) = ufault (ustep body c s) ->
    (forall c', c' <> c -> pcs (eng (ustep body c s)) c' = pcs (eng s) c') ->
    (tbuf t c = [] \/ forall lb, busy (pcs (eng s) c) lb -> busy (pcs (eng (ustep body c s)) c) lb) ->
    Rel (mkT (ustep body c (tu t)) (tbuf t)) (ustep body c s).
  Proof.
    intros Q M1 M2 M3 M4 M5 Oth Hb. destruct Q. constructor; cbn [tu tbuf]; try assumption.
    - intros c' x v H. destruct (R_in0 c' x v H) as (lb & B & Hw). exists lb. split; [|exact Hw]. destruct (Z.eq_dec c' c) as [->|Hne]; [|now rewrite Oth].
      destruct Hb as [Hb|Hb]; [rewrite Hb in H; destruct H|]. now apply Hb.
    - intros c' x v H. rewrite M1. exact (R_new0 _ _ _ H).
    - intros x H. rewrite M1, M3. now apply R_old0.
  Qed.
  Lemma ustep_other c s c' : c' <> c -> pcs (eng (ustep body c s)) c' = pcs (eng s) c'.
  Proof.
    intros Hne. unfold ustep. destruct (pcs (eng s) c) eqn:E; cbn [eng]; try (apply step_other_pc; exact Hne).
    destruct (urem s c); cbn [eng]; try reflexivity. cbn. now rewrite zupd_neq.
  Qed.

  Lemma rel_thread c t s : UInv s -> Rel t s -> (tbuf t c <> [] /\ Rel (tthread body c t) s) \/ Rel (tthread body c t) (ustep body c s).
  Proof.
    intros I Q. unfold tthread. rewrite (R_eng _ _ Q), (R_rem _ _ Q).
    assert (Eng : (forall lb len k, pcs (eng s) c <> Work lb len k) -> tbuf t c = [] \/ (forall lb, ~ busy (pcs (eng s) c) lb) ->
                  Rel (mkT (ustep body c (tu t)) (tbuf t)) (ustep body c s)).
    { intros Hw Hb. assert (Hb' : tbuf t c = []).
      { destruct Hb as [Hb|Hb]; [exact Hb|]. destruct (tbuf t c) as [|[x v] l] eqn:E; [reflexivity|]. exfalso.
        destruct (R_in _ _ Q c x v) as (lb & B & _); [rewrite E; now left|]. exact (Hb lb B). }
      apply rel_same; try assumption.
      - unfold ustep. destruct (pcs (eng s) c) eqn:E; try reflexivity. exfalso. eapply Hw. reflexivity.
      - unfold ustep. rewrite (R_eng _ _ Q). destruct (pcs (eng s) c) eqn:E; try reflexivity. exfalso. eapply Hw. reflexivity.
      - unfold ustep. rewrite (R_eng _ _ Q). destruct (pcs (eng s) c) eqn:E; try reflexivity. exfalso. eapply Hw. reflexivity.
      - unfold ustep. rewrite (R_eng _ _ Q), (R_rem _ _ Q). destruct (pcs (eng s) c) eqn:E; try reflexivity. exfalso. eapply Hw. reflexivity.
      - unfold ustep. rewrite (R_eng _ _ Q), (R_fault _ _ Q). destruct (pcs (eng s) c) eqn:E; try reflexivity. exfalso. eapply Hw. reflexivity.
      - intros c' Hne. now apply ustep_other.
      - left. exact Hb'. }
    destruct (pcs (eng s) c) as [|i sl|lb len|lb len k|lb| |i| |] eqn:E.
    all: try (right; apply Eng; [intros; discriminate|right; intros lb' B; exact B]).
    - (* Draw *) destruct (tbuf t c) eqn:B; [|left; split; [discriminate|exact Q]]. right. apply Eng; [intros; discriminate|now left].
    - destruct (tbuf t c) eqn:B; [|left; split; [discriminate|exact Q]]. right. apply Eng; [intros; discriminate|now left].
    - (* in a block *) right. clear Eng. assert (Hb : busy (pcs (eng s) c) lb) by (rewrite E; reflexivity).
      destruct (U_work _ I c lb len k E) as (m' & Hr & _). destruct (urem s c) as [a|x f|x v f| |] eqn:Er; cbn [runs] in Hr; try contradiction.
      + apply rel_same; try exact Q.
        * unfold ustep. rewrite E, Er. reflexivity.
        * unfold ustep. rewrite (R_eng _ _ Q), (R_rem _ _ Q), E, Er. reflexivity.
        * unfold ustep. rewrite (R_eng _ _ Q), (R_rem _ _ Q), E, Er. reflexivity.
        * unfold ustep. rewrite (R_eng _ _ Q), (R_rem _ _ Q), E, Er. reflexivity.
        * unfold ustep. rewrite (R_eng _ _ Q), (R_rem _ _ Q), E, Er. cbn [ufault]. apply (R_fault _ _ Q).
        * intros c' Hne. now apply ustep_other.
        * right. intros lb' B. rewrite E in B. cbn in B. subst lb'. unfold ustep. rewrite E, Er. cbn. rewrite zupd_eq. reflexivity.
      + (* load *)
        assert (V : match newest (tbuf t c) x with Some v => v | None => umem (tu t) x end = umem s x).
        { destruct (newest (tbuf t c) x) as [v|] eqn:Nw; [symmetry; exact (R_new _ _ Q _ _ _ Nw)|]. symmetry. apply (R_old _ _ Q). intros c'.
          destruct (Z.eq_dec c' c) as [->|Hne]; [exact Nw|]. apply (other_buffer t s c c' lb); auto. left. apply Hr. }
        rewrite V. unfold ustep. rewrite E, Er. destruct Q. constructor; cbn [tu tbuf eng urem ufault umem]; try assumption; reflexivity.
      + (* store *) destruct Hr as [Hx Hr]. unfold ustep. rewrite E, Er.
        pose proof (fun c' H => other_buffer t s c c' lb x I Q Hb (or_intror Hx) H) as Oth. destruct Q. constructor; cbn [tu tbuf eng urem ufault umem]; try assumption; try reflexivity.
        * intros c' y w H. unfold zupd in H. destruct (Z.eqb_spec c' c) as [->|]; [|exact (R_in0 _ _ _ H)]. apply in_app_iff in H. destruct H as [H|[[= <- <-]|[]]]; [exact (R_in0 _ _ _ H)|].
          exists lb. split; [exact Hb|exact Hx].
        * intros c' y w H. unfold zupd in H at 1. destruct (Z.eqb_spec c' c) as [->|Hne].
          -- rewrite newest_snoc in H. unfold zupd. destruct (y =? x); [congruence|exact (R_new0 _ _ _ H)].
          -- unfold zupd. destruct (Z.eqb_spec y x) as [->|]; [rewrite (Oth c' Hne) in H; discriminate|exact (R_new0 _ _ _ H)].
        * intros y H. pose proof (H c) as Hc. rewrite zupd_eq, newest_snoc in Hc. unfold zupd at 1. destruct (y =? x) eqn:Ey; [discriminate|]. apply R_old0.
          intros c'. pose proof (H c') as H'. unfold zupd in H'. destruct (Z.eqb_spec c' c) as [Ec|Ec]; [rewrite Ec; exact Hc|exact H'].
    - (* Finish *) destruct (tbuf t c) eqn:B; [|left; split; [discriminate|exact Q]]. right. apply Eng; [intros; discriminate|now left].
  Qed.

  Lemma rel_run sched : exists s, UInv s /\ Rel (trun body (tstart n T zz m0) sched) s.
  Proof.
    unfold trun. assert (G : exists s, UInv s /\ Rel (tstart n T zz m0) s) by (eexists; split; [exact uinv_start|exact rel_start]).
    revert G. generalize (tstart n T zz m0). induction sched as [|e l IH]; intros t G; [exact G|]. cbn [fold_left]. apply IH. destruct G as (s & I & Q).
    unfold tevent. destruct (Z.even e); [|exists s; split; [exact I|now apply rel_commit]].
    destruct (rel_thread (e / 2) t s I Q) as [[_ Q']|Q']; [exists s; auto|]. exists (ustep body (e / 2) s). split; [now apply uinv_step|exact Q'].
  Qed.

  Lemma tso_rule sched : let s := tu (trun body (tstart n T zz m0) sched) in
    ufault s = false /\
    (pcs (eng s) 0 = Returned ->
      (forall lb, 0 <= lb < BL -> final (umem s) lb) /\
      (forall x, (forall lb, 0 <= lb < BL -> ~ W lb x) -> umem s x = m0 x)).
  Proof.
    intros s0. destruct (rel_run sched) as (s & I & Q). unfold s0. rewrite (R_fault _ _ Q), (R_eng _ _ Q). split; [apply (U_nofault _ I)|].
    intros Hr. destruct (reachable_facts (eng s) (U_eng _ I)) as (F1 & _ & _ & _ & F5).
    assert (Emp : forall c x, newest (tbuf (trun body (tstart n T zz m0) sched) c) x = None).
    { intros c x. destruct (newest _ x) as [v|] eqn:E; [|reflexivity]. exfalso. destruct (R_in _ _ Q _ _ _ (newest_In _ _ _ E)) as (lb & B & _).
      pose proof (F1 c lb (busy_holds _ _ B)) as [Hlb _]. destruct (F5 0 Hr lb Hlb) as [_ N]. apply N. exists c. now apply busy_holds. }
    assert (M : forall x, umem (tu (trun body (tstart n T zz m0) sched)) x = umem s x) by (intros x; symmetry; apply (R_old _ _ Q); intros c; apply Emp).
    split.
    - intros lb Hlb x Hx. rewrite M. destruct (F5 0 Hr lb Hlb) as [HD HN]. exact (U_done _ I lb HD HN x Hx).
    - intros x Hx. rewrite M. destruct (U_out _ I x) as [E|(lb & Hlb & H)]; [exact E|]. exfalso. exact (Hx lb Hlb H).
  Qed.

  (** committing a thread's stores and letting it step makes the step of the machine without buffers *)
  Lemma drain c : forall k t, length (tbuf t c) = k -> tbuf (trun body t (repeat (2 * c + 1) k)) c = [].
  Proof.
    induction k as [|k IH]; intros t H; [destruct (tbuf t c) eqn:E; [exact E|discriminate]|]. cbn [repeat trun fold_left]. apply IH.
    unfold tevent. replace (Z.even (2 * c + 1)) with false by (rewrite Z.add_comm; symmetry; apply Z.even_add_mul_2). replace ((2 * c + 1) / 2) with c by (rewrite Z.add_comm, Z.mul_comm, Z.div_add by lia; reflexivity).
    unfold tcommit. destruct (tbuf t c) as [|[x v] l]; [discriminate|]. cbn [tbuf]. rewrite zupd_eq. now injection H.
  Qed.
  Lemma rel_commits c k : forall t s, Rel t s -> Rel (trun body t (repeat (2 * c + 1) k)) s.
  Proof.
    induction k as [|k IH]; intros t s Q; [exact Q|]. cbn [repeat trun fold_left]. apply IH. unfold tevent. replace (Z.even (2 * c + 1)) with false by (rewrite Z.add_comm; symmetry; apply Z.even_add_mul_2).
    now apply rel_commit.
  Qed.
  Lemma trun_app l1 l2 t : trun body t (l1 ++ l2) = trun body (trun body t l1) l2.
  Proof. apply fold_left_app. Qed.
  Lemma follow l : forall t s, UInv s -> Rel t s -> exists more, Rel (trun body t more) (urun body s l).
  Proof.
    induction l as [|c l IH]; intros t s I Q; [exists []; exact Q|].
    set (d := repeat (2 * c + 1) (length (tbuf t c))). assert (Q1 : Rel (trun body t d) s) by now apply rel_commits. assert (B : tbuf (trun body t d) c = []) by now apply drain.
    destruct (rel_thread c _ s I Q1) as [[N _]|Q2]; [contradiction|]. destruct (IH _ _ (uinv_step c s I) Q2) as (more & Q3).
    exists (d ++ (2 * c) :: more). rewrite trun_app.
    assert (Ev : tevent body (2 * c) (trun body t d) = tthread body c (trun body t d)).
    { unfold tevent. rewrite Z.even_mul. cbn [Z.even orb]. replace (2 * c / 2) with c by (rewrite Z.mul_comm, Z.div_mul by lia; reflexivity). reflexivity. }
    change (trun body (trun body t d) (2 * c :: more)) with (trun body (tevent body (2 * c) (trun body t d)) more). rewrite Ev. exact Q3.
  Qed.
  Lemma tso_can_return sched : exists more, pcs (eng (tu (trun body (tstart n T zz m0) (sched ++ more)))) 0 = Returned.
  Proof.
    destruct (rel_run sched) as (s & I & Q). destruct (ends s I) as (l & Hl). destruct (follow l _ s I Q) as (more & Q').
    exists more. rewrite trun_app, (R_eng _ _ Q'). exact Hl.
  Qed.
End Machine.
