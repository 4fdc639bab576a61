(** Jobs_Proofs.v - a proof rule for callbacks whose writes are determined cell by cell. *)
From Verif Require Import Base Threads_Model Threads_Proofs Threads_Counter_Proofs Jobs_Model.

Lemma nth_error_skipn {A} (l : list A) k : nth_error l k = hd_error (skipn k l).
Proof. revert l; induction k as [|k IH]; intros [|a l]; simpl; auto. Qed.

Lemma skipn_cons {A} (l : list A) k a r : skipn k l = a :: r -> nth_error l k = Some a /\ skipn (S k) l = r /\ (k < length l)%nat.
Proof.
  intros H. split; [rewrite nth_error_skipn, H; reflexivity|]. split.
  - replace (S k) with (1 + k)%nat by lia. clear - H. revert l H; induction k as [|k IH]; intros [|b l] H; simpl in *; try discriminate.
    + now inversion H.
    + apply IH in H. simpl in H. exact H.
  - assert (Hl := skipn_length k l). rewrite H in Hl. simpl in Hl. lia.
Qed.

Lemma skipn_nil_len {A} (l : list A) k : skipn k l = [] -> (length l <= k)%nat.
Proof. intros H. assert (Hl := skipn_length k l). rewrite H in Hl. simpl in Hl. lia. Qed.

Section Rule.
  Context {L V : Type}.
  Variables (prog : Z -> Z -> list (micro L V)) (l0 : L) (md : mode).
  Variables (n T : Z) (zz : bool) (m0 : memory V).
  Hypothesis Hn : 0 <= n.
  Hypothesis HT : 0 <= T.

  Variable f : Z -> V.                                (* final value of a written cell *)
  Variable good : memory V -> Prop.                   (* invariant of what a thread sees *)
  Variable locok : Z -> Z -> nat -> L -> memory V -> Prop.  (* locals after k micro-operations, in a memory *)
  Variable wcell : Z -> Z -> nat -> option Z.         (* cell written by micro-operation k *)
  Hypothesis good0 : good m0.
  (* the invariant and what a callback knows survive the stores of the others *)
  Hypothesis good_stable : forall m m', good m -> (forall a, m' a = m a \/ m' a = f a) -> good m'.
  Hypothesis lok0 : forall w, valid md n w -> let '(st, len) := piece md n w in forall m, locok st len 0%nat l0 m.
  Hypothesis lok_stable : forall st len k l m m', locok st len k l m -> (forall a, m' a = m a \/ m' a = f a) -> locok st len k l m'.
  Hypothesis op_ok : forall w k op l m, valid md n w ->
    let '(st, len) := piece md n w in
    nth_error (prog st len) k = Some op -> good m -> locok st len k l m ->
    let r := op l m in
    locok st len (S k) (fst r) (stored m (snd r)) /\
    (forall a v, snd r = Some (a, v) -> v = f a /\ wcell st len k = Some a) /\
    (forall a, wcell st len k = Some a -> stored m (snd r) a = f a).

  Definition cell_of (w : Z) (a : Z) : Prop :=
    let '(st, len) := piece md n w in exists k, (k < length (prog st len))%nat /\ wcell st len k = Some a.

  Record JInv (s : jstate L V) : Prop := {
    J_c : exists done fin, CInv md n T (jc s) done fin;
    J_good : good (jm s);
    J_buf : forall c a v, In (a, v) (jbuf s c) -> v = f a /\ exists w, valid md n w /\ cell_of w a;
    J_empty : forall c, (forall w, ~ cholds (cpcs (jc s) c) w) -> jbuf s c = [];
    J_work : forall c st len w, cpcs (jc s) c = CWork st len w ->
       exists k, jrem s c = skipn k (prog st len) /\ locok st len k (jloc s c) (view s c) /\
         forall j a, (j < k)%nat -> wcell st len j = Some a -> view s c a = f a;
    J_end : forall c w a, cpcs (jc s) c = CFinish w -> cell_of w a -> view s c a = f a;
    J_done : forall w a, CDrawn md n (jc s) w -> (forall c, ~ cholds (cpcs (jc s) c) w) -> cell_of w a -> jm s a = f a;
    J_other : forall a, jm s a = m0 a \/ (jm s a = f a /\ exists w, valid md n w /\ cell_of w a)
  }.

  (** ---- store queues that only hold final values ---- *)
  Lemma overlay_mono (b : list (Z * V)) m m' : (forall a, m' a = m a \/ m' a = f a) -> (forall a v, In (a, v) b -> v = f a) ->
    forall a, overlay b m' a = overlay b m a \/ overlay b m' a = f a.
  Proof.
    revert m m'. unfold overlay. induction b as [|[x v] b IH]; intros m m' H Hb; cbn [fold_left]; [exact H|]. apply IH.
    - intros a. cbn [fst snd]. unfold zupd. destruct (a =? x); [now left|apply H].
    - intros a v' Hin. apply Hb. now right.
  Qed.
  Lemma overlay_or (b : list (Z * V)) m : (forall a v, In (a, v) b -> v = f a) -> forall a, overlay b m a = m a \/ overlay b m a = f a.
  Proof.
    revert m. unfold overlay. induction b as [|[x v] b IH]; intros m Hb a; cbn [fold_left fst snd]; [now left|].
    destruct (IH (zupd m x v) (fun a v H => Hb a v (or_intror H)) a) as [E|E]; [|now right]. rewrite E. unfold zupd.
    destruct (Z.eqb_spec a x) as [->|]; [right|now left]. apply Hb. now left.
  Qed.
  Lemma overlay_final (b : list (Z * V)) m : (forall a v, In (a, v) b -> v = f a) -> forall a, m a = f a -> overlay b m a = f a.
  Proof. intros Hb a E. destruct (overlay_or b m Hb a) as [->|]; assumption. Qed.
  Lemma overlay_app (b : list (Z * V)) o m : overlay (b ++ match o with None => [] | Some av => [av] end) m = stored (overlay b m) o.
  Proof. unfold overlay. rewrite fold_left_app. destruct o as [[a v]|]; reflexivity. Qed.
  Lemma buf_final s : JInv s -> forall c a v, In (a, v) (jbuf s c) -> v = f a.
  Proof. intros I c a v H. apply (J_buf s I c a v H). Qed.

  Lemma jinv_start : JInv (jstart l0 md n T zz m0).
  Proof.
    assert (HH : forall c w, ~ cholds (cpcs (cstart md n T zz) c) w) by (intros c w; simpl; destruct (c =? 0); simpl; tauto).
    constructor.
    - exists [], []. apply cinv_start. assumption.
    - exact good0.
    - intros c a v [].
    - reflexivity.
    - intros c st len w H. exfalso. simpl in H. destruct (c =? 0); discriminate.
    - intros c w a H. exfalso. simpl in H. destruct (c =? 0); discriminate.
    - intros w a [Hv Hd] _ _. exfalso. unfold valid in Hv. pose proof (w0_bounds md) as W. unfold jstart, cstart in Hd. cbn [jc] in Hd.
      destruct md; cbn in Hd, Hv; lia.
    - intros a. left. reflexivity.
  Qed.

  Lemma valid_of_work s done fin c st len w :
    CInv md n T s done fin -> cpcs s c = CWork st len w -> valid md n w /\ (st, len) = piece md n w.
  Proof.
    intros I H. split.
    - apply (CI_held _ _ _ _ _ _ I c). rewrite H. reflexivity.
    - pose proof (CI_pc _ _ _ _ _ _ I c) as Hp. rewrite H in Hp. apply Hp.
  Qed.

  (** a piece that is drawn and in nobody's hands after an engine step was so before, or core [c] has just handed it in *)
  Lemma drawn_step s done fin c w : CInv md n T s done fin ->
    CDrawn md n (cstep md c s) w -> (forall c', ~ cholds (cpcs (cstep md c s) c') w) ->
    (CDrawn md n s w /\ forall c', ~ cholds (cpcs s c') w) \/ cpcs s c = CFinish w.
  Proof.
    intros I Hd Hh.
    assert (Ho : forall c', c' <> c -> ~ cholds (cpcs s c') w).
    { intros c' Hne H. apply (Hh c'). rewrite cstep_other by exact Hne. exact H. }
    pose proof (Hh c) as Hc. unfold cstep in Hd, Hc. unfold CDrawn in *. destruct (cpcs s c) as [| |st len w'|w'| |] eqn:E.
    - left. split; [destruct ((1 <=? c) && (c <=? ThreadWakeup (cit s))); exact Hd|].
      intros c'. destruct (Z.eq_dec c' c) as [->|Hne]; [rewrite E; intros []|now apply Ho].
    - left. split.
      + destruct (Z.eq_dec w (BlockNext (cit s))) as [->|Hne].
        * exfalso. destruct Hd as [Hv _]. rewrite (take_valid md n T _ _ (CI_static _ _ _ _ _ _ I) (CI_next _ _ _ _ _ _ I) Hv) in Hc.
          destruct (piece md n (BlockNext (cit s))) as [st len]. apply Hc. cbn. rewrite zupd_eq. reflexivity.
        * destruct (take md (cit s) (BlockNext (cit s))) as [[st len]|]; cbn in Hd; (split; [apply Hd|lia]).
      + intros c'. destruct (Z.eq_dec c' c) as [->|Hne]; [rewrite E; intros []|now apply Ho].
    - left. split; [exact Hd|]. intros c'. destruct (Z.eq_dec c' c) as [->|Hne]; [|now apply Ho].
      rewrite E. intros H. apply Hc. cbn. rewrite zupd_eq. exact H.
    - destruct (Z.eq_dec w' w) as [->|Hne]; [now right|]. left. split; [exact Hd|]. intros c'.
      destruct (Z.eq_dec c' c) as [->|Hc']; [rewrite E; cbn; congruence|now apply Ho].
    - left. split; [destruct (BlocksCompleted (cit s) <? target md (cit s)); exact Hd|].
      intros c'. destruct (Z.eq_dec c' c) as [->|Hne]; [rewrite E; intros []|now apply Ho].
    - left. split; [exact Hd|]. intros c'. destruct (Z.eq_dec c' c) as [->|Hne]; [rewrite E; intros []|now apply Ho].
  Qed.

  (** a step of core [c] *)
  Lemma jinv_thread c s : JInv s -> JInv (jthread prog l0 md c s).
  Proof.
    intros I. pose proof (buf_final s I) as Hbf. destruct I as [(done & fin & Ic) Ig Ib Ie Iw If Id Io]. unfold jthread.
    assert (Hengine : (forall st len w, cpcs (jc s) c = CWork st len w -> jrem s c = []) ->
      (locked (cpcs (jc s) c) = true -> jbuf s c = []) ->
      JInv (let cs' := cstep md c (jc s) in
        match cpcs cs' c with
        | CWork st len _ => mkJ cs' (jm s) (jbuf s) (zupd (jloc s) c l0) (zupd (jrem s) c (prog st len))
        | _ => mkJ cs' (jm s) (jbuf s) (jloc s) (jrem s)
        end)).
    { intros Hnil Hlock. cbv zeta. pose proof (cstep_inv md n T c (jc s) done fin Ic) as Ic'.
      set (cs' := cstep md c (jc s)) in *.
      assert (Hoth : forall c', c' <> c -> cpcs cs' c' = cpcs (jc s) c') by (intros c' Hne; unfold cs'; now apply cstep_other).
      (* the queue of [c] is empty when it holds nothing afterwards *)
      assert (He : forall c', (forall w, ~ cholds (cpcs cs' c') w) -> jbuf s c' = []).
      { intros c' H. destruct (Z.eq_dec c' c) as [->|Hne]; [|apply Ie; intros w; rewrite <- Hoth by exact Hne; apply H].
        unfold cs', cstep in H. destruct (cpcs (jc s) c) as [| |st len w|w| |] eqn:Ec.
        - apply Ie. rewrite Ec. intros w [].
        - now apply Hlock.
        - exfalso. apply (H w). cbn. rewrite zupd_eq. reflexivity.
        - now apply Hlock.
        - apply Ie. rewrite Ec. intros w [].
        - apply Ie. rewrite Ec. intros w []. }
      assert (Hd : forall w a, CDrawn md n cs' w -> (forall c, ~ cholds (cpcs cs' c) w) -> cell_of w a -> jm s a = f a).
      { intros w a H1 H2 Ha. destruct (drawn_step (jc s) done fin c w Ic H1 H2) as [[H3 H4]|E]; [now apply (Id w)|].
        pose proof (If c w a E Ha) as Hv. unfold view in Hv. rewrite Hlock in Hv by (rewrite E; reflexivity). exact Hv. }
      (* a core that finishes: it was working and has nothing left *)
      assert (Hf : forall c' w a, cpcs cs' c' = CFinish w -> cell_of w a -> overlay (jbuf s c') (jm s) a = f a).
      { intros c' w a H Ha. destruct (Z.eq_dec c' c) as [->|Hne]; [|apply (If c' w); [rewrite <- Hoth by exact Hne; exact H|exact Ha]].
        unfold cs', cstep in H. destruct (cpcs (jc s) c) as [| |st len w'|w'| |] eqn:Ec.
        - exfalso. destruct ((1 <=? c) && (c <=? ThreadWakeup (cit (jc s)))); [cbn in H; rewrite zupd_eq in H; discriminate H|rewrite Ec in H; discriminate H].
        - exfalso. destruct (take md (cit (jc s)) (BlockNext (cit (jc s)))) as [[st len]|]; cbn in H; rewrite zupd_eq in H; [discriminate H|]. destruct (c =? 0); discriminate H.
        - cbn in H. rewrite zupd_eq in H. injection H as <-. destruct (valid_of_work _ _ _ _ _ _ _ Ic Ec) as [Hv Hp].
          destruct (Iw c _ _ _ Ec) as (k & Hk & _ & Hcells). rewrite (Hnil _ _ _ eq_refl) in Hk. symmetry in Hk. apply skipn_nil_len in Hk.
          unfold cell_of in Ha. rewrite <- Hp in Ha. destruct Ha as (j & Hj & Ha). apply (Hcells j); [lia|exact Ha].
        - exfalso. cbn in H. rewrite zupd_eq in H. discriminate H.
        - exfalso. destruct (BlocksCompleted (cit (jc s)) <? target md (cit (jc s))); [rewrite Ec in H; discriminate H|cbn in H; rewrite zupd_eq in H; discriminate H].
        - exfalso. rewrite Ec in H. discriminate H. }
      assert (Hw : forall c' st len w, c' <> c -> cpcs cs' c' = CWork st len w -> cpcs (jc s) c' = CWork st len w) by (intros c' st len w Hne H; rewrite <- Hoth by exact Hne; exact H).
      destruct (cpcs cs' c) as [| |st len w|w| |] eqn:Ec.
      3: { constructor; cbn [jc jm jbuf jloc jrem view]; auto.
           intros c' st' len' w' H. destruct (Z.eq_dec c' c) as [->|Hne].
           - assert (E : CWork st len w = CWork st' len' w') by congruence. injection E as <- <- <-.
             rewrite !zupd_eq. exists 0%nat. split; [reflexivity|]. split.
             + destruct Ic' as (d' & f' & Ic'). destruct (valid_of_work _ _ _ _ _ _ _ Ic' Ec) as [Hv Hp]. pose proof (lok0 w Hv) as H0. rewrite <- Hp in H0. apply H0.
             + intros j a Hj. lia.
           - rewrite !zupd_neq by assumption. apply (Iw c' st' len' w'). apply Hw; assumption. }
      all: constructor; cbn [jc jm jbuf jloc jrem view]; auto.
      all: intros c' st' len' w' H; destruct (Z.eq_dec c' c) as [->|Hne]; [congruence|].
      all: apply (Iw c' st' len' w'); apply Hw; assumption. }
    assert (Hlocked : forall (s1 : jstate L V), JInv s1 -> (locked (cpcs (jc s) c) = true -> jbuf s c = []) \/ locked (cpcs (jc s) c) && negb (match jbuf s c with [] => true | _ => false end) = true).
    { intros _ _. destruct (jbuf s c); [left; reflexivity|]. destruct (locked (cpcs (jc s) c)); [now right|left; discriminate]. }
    assert (I : JInv s) by (constructor; eauto). specialize (Hlocked s I).
    assert (Hengine' : (forall st len w, cpcs (jc s) c = CWork st len w -> jrem s c = []) ->
      JInv (if locked (cpcs (jc s) c) && negb (match jbuf s c with [] => true | _ => false end) then s else
        let cs' := cstep md c (jc s) in
        match cpcs cs' c with
        | CWork st len _ => mkJ cs' (jm s) (jbuf s) (zupd (jloc s) c l0) (zupd (jrem s) c (prog st len))
        | _ => mkJ cs' (jm s) (jbuf s) (jloc s) (jrem s)
        end)).
    { intros Hnil. destruct Hlocked as [Hl | ->]; [|exact I].
      destruct (locked (cpcs (jc s) c) && negb (match jbuf s c with [] => true | _ => false end)); [exact I|]. now apply Hengine. }
    clear Hengine Hlocked.
    destruct (cpcs (jc s) c) as [| |st len w|w| |] eqn:Ec; try (apply Hengine'; intros; discriminate).
    destruct (jrem s c) as [|op rest] eqn:Er.
    { apply Hengine'. reflexivity. }
    clear Hengine'.
    destruct (valid_of_work _ _ _ _ _ _ _ Ic Ec) as [Hv Hp].
    destruct (Iw c _ _ _ Ec) as (k & Hk & Hl & Hcells). rewrite Er in Hk. symmetry in Hk.
    destruct (skipn_cons _ _ _ _ Hk) as (Hop & Hrest & Hlen).
    assert (Hgv : good (view s c)) by (apply (good_stable (jm s)); [exact Ig|]; apply overlay_or; apply Hbf).
    pose proof (op_ok w k op (jloc s c) (view s c) Hv) as Hok. rewrite <- Hp in Hok.
    destruct (Hok Hop Hgv Hl) as (H2 & H3 & H4). cbv zeta in *.
    set (r := op (jloc s c) (view s c)) in *.
    assert (Hview : overlay (jbuf s c ++ match snd r with None => [] | Some av => [av] end) (jm s) = stored (view s c) (snd r)) by apply overlay_app.
    assert (Hmono : forall a, view s c a = f a -> stored (view s c) (snd r) a = f a).
    { intros a Ha. unfold stored. destruct (snd r) as [[x v]|]; [|exact Ha]. unfold zupd. destruct (Z.eqb_spec a x) as [->|]; [|exact Ha]. now apply H3. }
    constructor; cbn [jc jm jbuf jloc jrem].
    - eauto.
    - exact Ig.
    - intros c' a v. unfold zupd at 1. destruct (c' =? c); [|apply Ib]. rewrite in_app_iff. intros [Hin|Hin]; [now apply (Ib c)|].
      destruct (snd r) as [[x y]|]; [|destruct Hin]. destruct Hin as [[= -> ->]|[]]. destruct (H3 a v eq_refl) as [E1 E2]. split; [exact E1|].
      exists w. split; [exact Hv|]. unfold cell_of. rewrite <- Hp. eauto.
    - intros c' H. destruct (Z.eq_dec c' c) as [->|Hne]; [exfalso; apply (H w); rewrite Ec; reflexivity|]. rewrite zupd_neq by exact Hne. now apply Ie.
    - intros c' st' len' w' H. unfold view. cbn [jbuf jm]. destruct (Z.eq_dec c' c) as [->|Hne].
      + assert (E : CWork st len w = CWork st' len' w') by congruence. injection E as <- <- <-. rewrite !zupd_eq, Hview.
        exists (S k). split; [symmetry; exact Hrest|]. split; [exact H2|].
        intros j a Hj Ha. destruct (Nat.eq_dec j k) as [->|Hjk]; [apply H4, Ha|].
        apply Hmono, (Hcells j); [lia|exact Ha].
      + rewrite !zupd_neq by assumption. exact (Iw c' st' len' w' H).
    - intros c' w' a H. unfold view. cbn [jbuf jm]. destruct (Z.eq_dec c' c) as [->|Hne]; [congruence|]. rewrite zupd_neq by exact Hne. apply (If c' w' a H).
    - exact Id.
    - exact Io.
  Qed.

  (** a store reaches memory *)
  Lemma jinv_commit c s : JInv s -> JInv (jcommit c s).
  Proof.
    intros I. pose proof (buf_final s I) as Hbf. unfold jcommit. destruct (jbuf s c) as [|[x v] b] eqn:Eb; [exact I|].
    destruct I as [Ic Ig Ib Ie Iw If Id Io].
    destruct (Ib c x v ltac:(rewrite Eb; now left)) as [-> Hx].
    assert (Hor : forall a, zupd (jm s) x (f x) a = jm s a \/ zupd (jm s) x (f x) a = f a) by (intros a; unfold zupd; destruct (Z.eqb_spec a x) as [->|]; auto).
    assert (Hown : overlay b (zupd (jm s) x (f x)) = view s c) by (unfold view; rewrite Eb; reflexivity).
    constructor; cbn [jc jm jbuf jloc jrem].
    - exact Ic.
    - now apply (good_stable (jm s)).
    - intros c' a v. unfold zupd at 1. destruct (Z.eqb_spec c' c) as [->|]; [|apply Ib]. intros H. apply (Ib c). rewrite Eb. now right.
    - intros c' H. destruct (Z.eq_dec c' c) as [->|Hne]; [rewrite (Ie c H) in Eb; discriminate Eb|]. rewrite zupd_neq by exact Hne. now apply Ie.
    - intros c' st len w H. destruct (Iw c' st len w H) as (k & E1 & E2 & E3). exists k. split; [exact E1|]. unfold view. cbn [jbuf jm].
      destruct (Z.eq_dec c' c) as [->|Hne]; [rewrite zupd_eq, Hown; auto|]. rewrite zupd_neq by exact Hne.
      pose proof (overlay_mono (jbuf s c') (jm s) _ Hor (Hbf c')) as M. split; [eapply lok_stable; [exact E2|exact M]|].
      intros j a Hj Ha. destruct (M a) as [->|E]; [now apply (E3 j)|exact E].
    - intros c' w a H Ha. unfold view. cbn [jbuf jm]. destruct (Z.eq_dec c' c) as [->|Hne]; [rewrite zupd_eq, Hown; now apply (If c w)|].
      rewrite zupd_neq by exact Hne. destruct (overlay_mono (jbuf s c') (jm s) _ Hor (Hbf c') a) as [->|E]; [now apply (If c' w)|exact E].
    - intros w a H1 H2 Ha. destruct (Hor a) as [->|E]; [now apply (Id w)|exact E].
    - intros a. unfold zupd. destruct (Z.eqb_spec a x) as [->|]; [right; auto|apply Io].
  Qed.

  Lemma jreach_inv sched : JInv (jrun prog l0 md (jstart l0 md n T zz m0) sched).
  Proof.
    unfold jrun. pose proof jinv_start as H.
    revert H. generalize (jstart l0 md n T zz m0). induction sched as [|c sched IH]; intros s H; [exact H|].
    cbn [fold_left]. apply IH. unfold jstep. destruct (Z.even c); [now apply jinv_thread|now apply jinv_commit].
  Qed.

  (** ---- the rule ---- *)
  Lemma jobs_rule_m sched m' : jreturned prog l0 md n T zz m0 sched m' ->
    good m' /\
    (forall w a, valid md n w -> cell_of w a -> m' a = f a) /\
    (forall a, (forall w, valid md n w -> ~ cell_of w a) -> m' a = m0 a).
  Proof.
    intros [Hr <-]. destruct (jreach_inv sched) as [(d & fi & Ic) Ig Ib Ie Iw If Id Io].
    set (s := jrun prog l0 md (jstart l0 md n T zz m0) sched) in *.
    split; [exact Ig|]. split.
    - intros w a Hv Ha. pose proof (returned_done md n T (jc s) d fi 0 Ic Hr w Hv) as Hd. apply (Id w); [now apply (CI_done_dr _ _ _ _ _ _ Ic)| |exact Ha].
      intros c H. exact (CI_done_held _ _ _ _ _ _ Ic c w H Hd).
    - intros a Hno. destruct (Io a) as [E|[_ (w & Hv & Ha)]]; [exact E|]. exfalso. exact (Hno w Hv Ha).
  Qed.
End Rule.

(** the same with facts about locals only, for operations as functions of memory *)
Section RuleLocal.
  Context {L V : Type}.
  Variables (prog : Z -> Z -> list (micro L V)) (l0 : L) (md : mode).
  Variables (n T : Z) (zz : bool) (m0 : memory V).
  Hypothesis HT : 0 <= T.
  Variables (f : Z -> V) (good : memory V -> Prop) (locok : Z -> Z -> nat -> L -> Prop) (wcell : Z -> Z -> nat -> option Z).
  Hypothesis good0 : good m0.
  Hypothesis good_stable : forall m m', good m -> (forall a, m' a = m a \/ m' a = f a) -> good m'.
  Hypothesis lok0 : forall w, valid md n w -> let '(st, len) := piece md n w in locok st len 0%nat l0.
  Hypothesis op_ok : forall w k op l m, valid md n w ->
    let '(st, len) := piece md n w in
    nth_error (prog st len) k = Some op -> good m -> locok st len k l ->
    let r := op l m in
    locok st len (S k) (fst r) /\
    match snd r with Some (a, v) => v = f a /\ wcell st len k = Some a | None => wcell st len k = None end.
  Notation cell_of := (cell_of prog md n wcell).
  Lemma jobs_rule sched m' : jreturned prog l0 md n T zz m0 sched m' ->
    good m' /\
    (forall w a, valid md n w -> cell_of w a -> m' a = f a) /\
    (forall a, (forall w, valid md n w -> ~ cell_of w a) -> m' a = m0 a).
  Proof.
    apply (jobs_rule_m prog l0 md n T zz m0 HT f good (fun st len k l _ => locok st len k l) wcell good0 good_stable).
    - intros w Hw. specialize (lok0 w Hw). destruct (piece md n w). auto.
    - auto.
    - intros w k op l m Hw. specialize (op_ok w k op l m Hw). destruct (piece md n w) as [st len]. intros H1 H2 H3.
      destruct (op_ok H1 H2 H3) as [A B]. cbv zeta. split; [exact A|]. destruct (snd (op l m)) as [[a v]|].
      + destruct B as [-> B]. split; [intros a' v' [= <- <-]; auto|]. intros a' H. cbn [stored]. assert (a' = a) as -> by congruence. apply zupd_eq.
      + split; [discriminate|]. intros a H. congruence.
  Qed.
End RuleLocal.


(** ---- the caller alone can finish: used to show that returning executions exist ---- *)
Section Alone.
  Context {L V : Type}.
  Variables (prog : Z -> Z -> list (micro L V)) (l0 : L) (md : mode).
  Variables (n T : Z).
  Hypothesis Hn : 0 <= n.

  Lemma jrun_app s a b : jrun prog l0 md s (a ++ b) = jrun prog l0 md (jrun prog l0 md s a) b.
  Proof. unfold jrun. now rewrite fold_left_app. Qed.

  Lemma drain s st len w : cpcs (jc s) 0 = CWork st len w ->
    exists k s', (jrun prog l0 md s (repeat 0 k) = s') /\ (jc s' = jc s) /\ (jrem s' 0 = []).
  Proof.
    remember (jrem s 0) as ops eqn:E. revert s E. induction ops as [|op rest IH]; intros s E H.
    - exists 0%nat, s. cbn. auto.
    - set (s1 := jstep prog l0 md 0 s).
      assert (H1 : jc s1 = jc s /\ jrem s1 0 = rest).
      { unfold s1, jstep. change (Z.even 0) with true. change (0 / 2) with 0. unfold jthread. rewrite H, <- E. cbn [jc jrem]. rewrite zupd_eq. auto. }
      destruct H1 as [H1 H2].
      destruct (IH s1 (eq_sym H2) ltac:(rewrite H1; exact H)) as (k & s' & E1 & E2 & E3).
      exists (S k), s'. cbn [repeat]. split; [exact E1|]. split; [congruence|exact E3].
  Qed.
  Lemma drain_queue s : exists k s', (jrun prog l0 md s (repeat 1 k) = s') /\ (jc s' = jc s) /\ (jrem s' 0 = jrem s 0) /\ jbuf s' 0 = [].
  Proof.
    remember (jbuf s 0) as b eqn:E. revert s E. induction b as [|[a v] b IH]; intros s E.
    - exists 0%nat, s. cbn. auto.
    - set (s1 := jstep prog l0 md 1 s).
      assert (H1 : jc s1 = jc s /\ jrem s1 0 = jrem s 0 /\ jbuf s1 0 = b).
      { unfold s1, jstep. change (Z.even 1) with false. change (1 / 2) with 0. unfold jcommit. rewrite <- E. cbn [jc jrem jbuf]. rewrite zupd_eq. auto. }
      destruct H1 as (H1 & H2 & H3).
      destruct (IH s1 (eq_sym H3)) as (k & s' & E1 & E2 & E3 & E4).
      exists (S k), s'. cbn [repeat]. split; [exact E1|]. split; [congruence|]. split; [congruence|exact E4].
  Qed.
  (** an engine step of the caller with an empty queue *)
  Lemma engine0 s : jbuf s 0 = [] -> (forall st len w, cpcs (jc s) 0 = CWork st len w -> jrem s 0 = []) ->
    jc (jstep prog l0 md 0 s) = cstep md 0 (jc s) /\ jbuf (jstep prog l0 md 0 s) = jbuf s.
  Proof.
    intros Hb Hr. unfold jstep. change (Z.even 0) with true. change (0 / 2) with 0. unfold jthread. rewrite Hb.
    destruct (cpcs (jc s) 0) as [| |st len w|w| |] eqn:E; cbn [locked andb negb]; try (destruct (cpcs (cstep md 0 (jc s)) 0); split; reflexivity).
    rewrite (Hr _ _ _ eq_refl). cbn [locked andb negb]. destruct (cpcs (cstep md 0 (jc s)) 0); split; reflexivity.
  Qed.

  Definition AInv (s : jstate L V) (w : Z) : Prop :=
    cstatic md n T (cit (jc s)) /\ BlockNext (cit (jc s)) = w /\ BlocksCompleted (cit (jc s)) = w - w0 md /\ cpcs (jc s) 0 = CDraw /\ jbuf s 0 = [].

  Lemma alone_piece s w : AInv s w -> valid md n w -> exists sched s', (jrun prog l0 md s sched = s') /\ AInv s' (w + 1).
  Proof.
    intros (Hs & Hb & Hc & Hp & Hq) Hv.
    assert (Hw0 : 0 <= w) by (unfold valid in Hv; pose proof (w0_bounds md); lia).
    set (s1 := jstep prog l0 md 0 s).
    destruct (piece md n w) as [st len] eqn:Epc.
    destruct (engine0 s Hq ltac:(congruence)) as [G1 G2]. fold s1 in G1, G2.
    assert (H1 : cpcs (jc s1) 0 = CWork st len w /\ cstatic md n T (cit (jc s1)) /\ BlockNext (cit (jc s1)) = w + 1 /\ BlocksCompleted (cit (jc s1)) = w - w0 md).
    { rewrite G1. unfold cstep. rewrite Hp, Hb. rewrite (take_valid md n T _ w Hs Hw0 Hv), Epc. cbn [cgoto cpcs jc cit].
      rewrite ?zupd_eq. repeat split; try apply Hs; assumption. }
    destruct H1 as (P1 & P2 & P3 & P4).
    destruct (drain s1 st len w P1) as (k & s2 & E1 & E2 & E3).
    destruct (drain_queue s2) as (k' & s2' & F1 & F2 & F3 & F4).
    rewrite <- E2, <- F2 in P1, P2, P3, P4. rewrite <- F3 in E3.
    set (s3 := jstep prog l0 md 0 s2').
    destruct (engine0 s2' F4 ltac:(intros; exact E3)) as [G3 G4]. fold s3 in G3, G4.
    assert (H3 : cpcs (jc s3) 0 = CFinish w /\ cit (jc s3) = cit (jc s2')).
    { rewrite G3. unfold cstep. rewrite P1. cbn [cgoto cpcs jc cit]. rewrite zupd_eq. auto. }
    destruct H3 as (Q1 & Q2).
    set (s4 := jstep prog l0 md 0 s3).
    destruct (engine0 s3 ltac:(rewrite G4; exact F4) ltac:(congruence)) as [G5 G6]. fold s4 in G5, G6.
    assert (H4 : cpcs (jc s4) 0 = CDraw /\ cit (jc s4) = set_completed (cit (jc s3)) (BlocksCompleted (cit (jc s3)) + 1)).
    { rewrite G5. unfold cstep. rewrite Q1. cbn [cgoto cpcs jc cit]. rewrite zupd_eq. auto. }
    destruct H4 as (R1 & R2).
    exists ([0] ++ repeat 0 k ++ repeat 1 k' ++ [0; 0]), s4. split.
    - rewrite !jrun_app. change (jrun prog l0 md s [0]) with s1. rewrite E1, F1. reflexivity.
    - unfold AInv. rewrite R2, Q2, G6, G4. repeat split; try apply P2; cbn; try assumption; lia.
  Qed.

  Lemma alone s w : AInv s w -> w0 md <= w <= w0 md + tgt md n ->
    exists sched, cpcs (jc (jrun prog l0 md s sched)) 0 = CReturned.
  Proof.
    remember (Z.to_nat (w0 md + tgt md n - w)) as d eqn:Ed. revert s w Ed. induction d as [|d IH]; intros s w Ed HA Hw.
    - destruct HA as (Hs & Hb & Hc & Hp & Hq). exists [0; 0]. pose proof (w0_bounds md).
      assert (Hnv : ~ valid md n w) by (unfold valid; lia).
      cbn [jrun fold_left].
      set (s1 := jstep prog l0 md 0 s). destruct (engine0 s Hq ltac:(congruence)) as [G1 G2]. fold s1 in G1, G2.
      assert (H1 : cpcs (jc s1) 0 = CWait /\ cit (jc s1) = set_next (cit (jc s)) (w + 1)).
      { rewrite G1. unfold cstep. rewrite Hp, Hb.
        rewrite (take_invalid md n T _ w Hs ltac:(lia) Hnv). cbn [cgoto cpcs jc cit].
        change (0 =? 0) with true. rewrite zupd_eq. auto. }
      destruct H1 as [H1 H2]. destruct (engine0 s1 ltac:(rewrite G2; exact Hq) ltac:(congruence)) as [G3 _]. rewrite G3. unfold cstep. rewrite H1, H2.
      assert (Ht : target md (set_next (cit (jc s)) (w + 1)) = tgt md n)
        by (apply (target_tgt md n T); exact Hs).
      rewrite Ht. cbn [BlocksCompleted set_next]. rewrite Hc.
      destruct (Z.ltb_spec (w - w0 md) (tgt md n)); [lia|].
      cbn [cgoto cpcs]. now rewrite zupd_eq.
    - assert (Hv : valid md n w) by (unfold valid; lia).
      destruct (alone_piece s w HA Hv) as (k & s' & E & HA').
      destruct (IH s' (w + 1) ltac:(lia) HA' ltac:(lia)) as (k' & H').
      exists (k ++ k'). rewrite jrun_app, E. exact H'.
  Qed.
End Alone.

Lemma jobs_can_return {L V} (prog : Z -> Z -> list (micro L V)) l0 md n T zz m :
  0 <= n -> 0 <= T -> (md = IndexMode -> 1 <= T) ->
  exists sched m', jreturned prog l0 md n T zz m sched m'.
Proof.
  intros Hn HT Hi. destruct md.
  - destruct (alone prog l0 ChunkMode n T (jstart l0 ChunkMode n T zz m) 0) as (k & Hk).
    + unfold AInv. cbn. repeat split; reflexivity.
    + cbn. pose proof (BL_nonneg n Hn). lia.
    + exists k. eexists. split; [exact Hk|reflexivity].
  - specialize (Hi eq_refl).
    set (s := jrun prog l0 IndexMode (jstart l0 IndexMode n T zz m) [2; 2]).
    destruct (alone prog l0 IndexMode n T s 1) as (k & Hk).
    + unfold s, jrun. cbn [fold_left].
      set (s0 := jstart l0 IndexMode n T zz m).
      assert (Hc1 : cstep IndexMode 1 (cstart IndexMode n T zz) = cgoto (cstart IndexMode n T zz) 1 CDraw).
      { unfold cstep. change (cpcs (cstart IndexMode n T zz) 1) with CIdle. cbn iota.
        change (ThreadWakeup (cit (cstart IndexMode n T zz))) with T.
        change (1 <=? 1) with true. destruct (Z.leb_spec 1 T); [reflexivity|lia]. }
      assert (H1 : jstep prog l0 IndexMode 2 s0 = mkJ (cgoto (cstart IndexMode n T zz) 1 CDraw) m (fun _ => []) (fun _ => l0) (fun _ => [])).
      { unfold jstep. change (Z.even 2) with true. change (2 / 2) with 1. unfold jthread, s0. change (cpcs (jc (jstart l0 IndexMode n T zz m)) 1) with CIdle. cbn iota.
        change (jc (jstart l0 IndexMode n T zz m)) with (cstart IndexMode n T zz). rewrite Hc1. reflexivity. }
      rewrite H1.
      set (c1 := cgoto (cstart IndexMode n T zz) 1 CDraw).
      assert (Ht : take IndexMode (cit c1) 0 = None).
      { cbn. destruct (0 <? n + 1); reflexivity. }
      assert (Hc2 : cstep IndexMode 1 c1 = cgoto (mkC (set_next (cit c1) 1) (cpcs c1) [] []) 1 CIdle).
      { unfold cstep. change (cpcs c1 1) with CDraw. cbn iota. change (BlockNext (cit c1)) with 0. rewrite Ht. reflexivity. }
      unfold jstep. change (Z.even 2) with true. change (2 / 2) with 1. unfold jthread. cbn [jc jbuf]. change (cpcs c1 1) with CDraw. cbn [locked andb negb]. rewrite Hc2.
      unfold AInv. cbn. repeat split; reflexivity.
    + cbn. lia.
    + exists ([2; 2] ++ k). eexists. split; [rewrite jrun_app; exact Hk|reflexivity].
Qed.
