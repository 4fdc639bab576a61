(** ParSort_Tree_Proofs.v - the merge tree, for any leaf and merge programs that respect their node's addresses. *)
From Verif Require Import Base Threads_Model Threads_Proofs Threads_Counter_Proofs Sort_Model Sort_Base_Proofs ParSort_Model.

(** a program that keeps to [ok] does not see the rest of memory *)
Lemma wp_frame {T A} (ok : Z -> bool) (p : prog T A) (Q : A -> (Z -> T) -> Prop) :
  (forall a m m', (forall x, ok x = true -> m' x = m x) -> Q a m -> Q a m') ->
  forall m m', (forall x, ok x = true -> m' x = m x) -> wp ok p Q m -> wp ok p Q m'.
Proof.
  intros HQ. induction p as [a|x k IH|x v k IH| |]; intros m m' Hm; unfold wp; cbn; try tauto.
  - intros H. now apply (HQ a m).
  - destruct (ok x) eqn:E; [|tauto]. rewrite (Hm x E). apply (IH (m x) m m' Hm).
  - destruct (ok x) eqn:E; [|tauto]. apply (IH (zupd m x v) (zupd m' x v)).
    intros y Hy. unfold zupd. destruct (y =? x); [reflexivity|now apply Hm].
Qed.

(** * nodes *)
(** a forest of N trees of height K: node i of level l *)
Definition gnode (N : Z) (K l : nat) (i : Z) : Prop := (l <= K)%nat /\ 0 <= i < N * 2 ^ Z.of_nat (K - l).
(** (l,i) is below or at (l',i') *)
Definition under (l : nat) (i : Z) (l' : nat) (i' : Z) : Prop :=
  (l <= l')%nat /\ i' = i / 2 ^ Z.of_nat (l' - l).

Lemma pow2_pos k : 0 < 2 ^ Z.of_nat k. Proof. apply Z.pow_pos_nonneg; lia. Qed.
Lemma pow2_S k : 2 ^ Z.of_nat (S k) = 2 * 2 ^ Z.of_nat k.
Proof. rewrite Nat2Z.inj_succ, Z.pow_succ_r by lia. reflexivity. Qed.
Lemma node_up N K l i : gnode N K l i -> (l < K)%nat -> gnode N K (S l) (i / 2).
Proof.
  intros [H1 H2] H. split; [lia|]. replace (K - l)%nat with (S (K - S l)) in H2 by lia. rewrite pow2_S in H2.
  split; [apply Z.div_pos; lia|]. apply Z.div_lt_upper_bound; lia.
Qed.
Lemma node_down N K l i j : gnode N K (S l) i -> j / 2 = i -> gnode N K l j.
Proof.
  intros [H1 H2] E. split; [lia|]. replace (K - l)%nat with (S (K - S l)) by lia. rewrite pow2_S. lia.
Qed.
(** bounded search *)
Lemma search (P : Z -> Prop) : (forall i, P i \/ ~ P i) -> forall n, (exists i, 0 <= i < n /\ P i) \/ (forall i, 0 <= i < n -> ~ P i).
Proof.
  intros HD n. destruct (Z_le_dec 0 n) as [Hn|Hn]; [|right; intros; lia].
  pattern n. apply natlike_ind; [right; intros; lia| |exact Hn].
  intros x Hx [(i & Hi & H)|H]; [left; exists i; split; [lia|exact H]|].
  destruct (HD x) as [H'|H']; [left; exists x; split; [lia|exact H']|right].
  intros i Hi. destruct (Z.eq_dec i x) as [->|]; [exact H'|apply H; lia].
Qed.
Lemma under_step l i l' i' : under l i l' i' -> (l < l')%nat -> under (S l) (i / 2) l' i'.
Proof.
  intros [H1 ->] H. split; [lia|]. replace (l' - l)%nat with (S (l' - S l)) by lia. rewrite pow2_S.
  rewrite Z.div_div; [reflexivity|lia|apply pow2_pos].
Qed.
Lemma under_eq l i i' : under l i l i' -> i = i'.
Proof. intros [_ ->]. rewrite Nat.sub_diag. cbn. now rewrite Z.div_1_r. Qed.

Inductive status := NR | Run (c : Z) | Fin.

(** the other child of the same parent *)
Definition buddy (i : Z) : Z := if Z.odd i then i - 1 else i + 1.
Lemma buddy_div i : buddy i / 2 = i / 2.
Proof.
  unfold buddy. destruct (Z.odd i) eqn:E.
  - apply Zodd_bool_iff, Zodd_ex in E. destruct E as [k ->].
    replace (2 * k + 1 - 1) with (k * 2) by lia. replace (2 * k + 1) with (1 + k * 2) by lia. rewrite Z.div_add, Z.div_mul by lia. reflexivity.
  - rewrite <- Z.negb_even in E. apply Bool.negb_false_iff in E. apply Zeven_bool_iff, Zeven_ex in E. destruct E as [k ->].
    replace (2 * k + 1) with (1 + k * 2) by lia. replace (2 * k) with (k * 2) by lia. rewrite Z.div_add, Z.div_mul by lia. reflexivity.
Qed.
Lemma buddy_neq i : buddy i <> i. Proof. unfold buddy. destruct (Z.odd i); lia. Qed.
Lemma buddy_only i j : j / 2 = i / 2 -> j = i \/ j = buddy i.
Proof.
  unfold buddy. intros H. rewrite Zodd_mod. pose proof (Z.div_mod i 2 ltac:(lia)). pose proof (Z.div_mod j 2 ltac:(lia)).
  pose proof (Z.mod_pos_bound i 2 ltac:(lia)). pose proof (Z.mod_pos_bound j 2 ltac:(lia)).
  destruct (Zeq_bool (i mod 2) 1) eqn:E.
  - apply Zeq_bool_eq in E. lia.
  - apply Zeq_bool_neq in E. lia.
Qed.
Lemma buddy_mask_is i : buddy_mask i = Z.shiftl 1 (buddy i).
Proof. unfold buddy_mask, buddy. now destruct (Z.odd i). Qed.
Lemma buddy_nonneg i : 0 <= i -> 0 <= buddy i.
Proof. intros H. pose proof (buddy_div i). pose proof (Z.div_pos i 2 H ltac:(lia)). assert (0 <= buddy i / 2) by lia.
  destruct (Z.lt_ge_cases (buddy i) 0); [|lia]. pose proof (Z.div_lt_upper_bound (buddy i) 2 0). lia. Qed.
Lemma shiftl1 i : 0 <= i -> Z.shiftl 1 i = 2 ^ i. Proof. intros H. rewrite Z.shiftl_mul_pow2 by lia. lia. Qed.
Lemma buddy_answer i mask : 0 <= i -> snd (IsBuddyBitSet i mask) = Z.testbit mask (buddy i).
Proof.
  intros Hi. unfold IsBuddyBitSet. cbn [snd]. rewrite buddy_mask_is. pose proof (buddy_nonneg i Hi) as Hb.
  rewrite shiftl1 by lia. destruct (Z.testbit mask (buddy i)) eqn:E.
  - apply Z.eqb_eq. apply Z.bits_inj'. intros k Hk. rewrite Z.land_spec, Z.pow2_bits_eqb by lia.
    destruct (Z.eqb_spec (buddy i) k) as [<-|]; [now rewrite E|]. now rewrite Bool.andb_false_r.
  - apply Z.eqb_neq. intros H. assert (H1 : Z.testbit (2 ^ buddy i) (buddy i) = true) by (rewrite Z.pow2_bits_eqb, Z.eqb_refl by lia; reflexivity).
    rewrite H, Z.land_spec, E in H1. discriminate.
Qed.
Lemma mask_after i mask j : 0 <= i -> 0 <= j -> Z.testbit (fst (IsBuddyBitSet i mask)) j = Z.testbit mask j || (j =? i).
Proof.
  intros Hi Hj. cbn [fst IsBuddyBitSet]. rewrite shiftl1 by lia. rewrite Z.lor_spec, Z.pow2_bits_eqb by lia.
  f_equal. apply Z.eqb_sym.
Qed.

Section Tree.
  Context {T : Type}.
  Variables (leaf : Z -> prog T unit) (merge : nat -> Z -> prog T unit) (N : Z) (K : nat) (W : Z) (zz : bool) (m0 : Z -> T).
  Variables (ok : nat -> Z -> Z -> bool) (Post : nat -> Z -> (Z -> T) -> Prop).
  Notation node := (gnode N).
  Hypothesis HW : 0 <= W.
  Hypothesis HN : 0 <= N.
  Hypothesis Hleaf : forall i, node K 0 i -> wp (ok 0%nat i) (leaf i) (fun _ => Post 0 i) m0.
  Hypothesis Hmerge : forall l i m, node K (S l) i -> Post l (2 * i) m -> Post l (2 * i + 1) m ->
    wp (ok (S l) i) (merge (S l) i) (fun _ => Post (S l) i) m.
  Hypothesis Hpost : forall l i m m', node K l i -> (forall x, ok l i x = true -> m' x = m x) -> Post l i m -> Post l i m'.
  Hypothesis Hdis : forall l i l' i' x, node K l i -> node K l' i' -> ~ under l i l' i' -> ~ under l' i' l i ->
    ok l i x = true -> ok l' i' x = true -> False.

  Notation NL := (N * 2 ^ Z.of_nat K).
  Notation Step := (pstep leaf merge K).

  Record PInv (s : pstate T) (ns : nat -> Z -> status) (done fin : list Z) : Prop := {
    P_eng : CInv IndexMode NL W (pc s) done fin;
    P_lev : forall l i, node K l i -> (l < K)%nat -> Z.testbit (plev s l) i = true <-> ns l i = Fin;
    P_leaf : forall i, node K 0 i -> ns 0%nat i = NR <-> BlockNext (cit (pc s)) <= i + 1;
    P_up : forall l i, node K (S l) i -> ns (S l) i <> NR <-> (ns l (2 * i) = Fin /\ ns l (2 * i + 1) = Fin);
    P_run : forall l i c, node K l i -> ns l i = Run c ->
      (exists st len w, cpcs (pc s) c = CWork st len w) /\
      exists p, pp s c = lift p (climb merge (K - l) l i) /\ wp (ok l i) p (fun _ => Post l i) (pm s);
    P_fin : forall l i, node K l i -> ns l i = Fin -> (l = K \/ ns (S l) (i / 2) = NR) -> Post l i (pm s);
    P_nr : forall i, node K 0 i -> ns 0%nat i = NR -> wp (ok 0%nat i) (leaf i) (fun _ => Post 0 i) (pm s);
    P_own : forall c st len w, cpcs (pc s) c = CWork st len w -> pp s c = TDone \/ exists l i, node K l i /\ ns l i = Run c;
    P_uniq : forall l i l' i' c, node K l i -> node K l' i' -> ns l i = Run c -> ns l' i' = Run c -> l = l' /\ i = i';
    P_out : forall x, (forall l i, node K l i -> ok l i x = false) -> pm s x = m0 x;
    P_log_nd : NoDup (plog s);
    P_log : forall l i, In (l, i) (plog s) <-> (node K l i /\ (0 < l)%nat /\ ns l i <> NR)
  }.

  Lemma reached_below s ns done fin : PInv s ns done fin -> forall k l i l' i', (l' = l + k)%nat ->
    node K l i -> node K l' i' -> under l i l' i' -> (0 < k)%nat -> ns l' i' <> NR -> ns l i = Fin.
  Proof.
    intros I. induction k as [|k IH]; intros l i l' i' El Hn Hn' Hu Hk Hr; [lia|].
    assert (HlK : (l < K)%nat) by (destruct Hn' as [H _]; lia).
    pose proof (node_up N K l i Hn HlK) as Hp.
    assert (Hpr : ns (S l) (i / 2) <> NR).
    { destruct (Nat.eq_dec k 0) as [->|Hk0].
      - assert (E : (l' = S l)%nat) by lia. clear El. subst l'. apply under_step in Hu; [|lia]. apply under_eq in Hu. now subst i'.
      - assert (E : ns (S l) (i / 2) = Fin); [|congruence].
        apply (IH (S l) (i / 2) l' i'); try assumption; try lia. apply under_step; [exact Hu|lia]. }
    apply (P_up _ _ _ _ I (l) (i / 2) Hp) in Hpr. destruct Hpr as [H1 H2].
    destruct (buddy_only (2 * (i / 2)) i) as [E|E].
    { rewrite Z.mul_comm, Z.div_mul by lia. reflexivity. }
    - now rewrite E.
    - rewrite E. unfold buddy. rewrite Z.odd_mul. cbn. exact H2.
  Qed.

  (** nodes that are both active cannot be one below the other *)
  Lemma active_apart s ns done fin l i l' i' : PInv s ns done fin -> node K l i -> node K l' i' ->
    ns l' i' <> NR -> ns l i <> Fin -> (l, i) <> (l', i') -> ~ under l i l' i'.
  Proof.
    intros I Hn Hn' Hr Hf Hne Hu. destruct Hu as [Hl E].
    destruct (Nat.eq_dec l l') as [->|Hd].
    - apply Hne. f_equal. apply (under_eq l'). split; [lia|exact E].
    - apply Hf. apply (reached_below s ns done fin I (l' - l) l i l' i'); try assumption; try lia. split; assumption.
  Qed.

  Lemma pinv_start : PInv (pstart NL W zz m0) (fun _ _ => NR) [] [].
  Proof.
    assert (Hns : 0 <= NL) by (pose proof (pow2_pos K); nia).
    constructor; cbn [pstart pc pm plev pp plog].
    - apply cinv_start; assumption.
    - intros l i Hn Hl. rewrite Z.testbit_0_l. split; discriminate.
    - intros i [_ Hi]. cbn. split; [lia|reflexivity].
    - intros l i Hn. split; [congruence|intros [H _]; discriminate].
    - discriminate.
    - discriminate.
    - intros i Hi _. now apply Hleaf.
    - intros c st len w H. exfalso. cbn in H. destruct (c =? 0); discriminate.
    - discriminate.
    - reflexivity.
    - constructor.
    - intros l i. split; [intros []|]. intros (_ & _ & H). congruence.
  Qed.

  (** an access of the core that runs node (l,i) leaves every other node's facts standing *)
  Lemma mem_step s ns done fin c l i p pp' m' : PInv s ns done fin -> node K l i -> ns l i = Run c ->
    (forall x, ok l i x = false -> m' x = pm s x) ->
    pp' = lift p (climb merge (K - l) l i) ->
    wp (ok l i) p (fun _ => Post l i) m' ->
    PInv (mkP (pc s) m' (plev s) (zupd (pp s) c pp') (plog s)) ns done fin.
  Proof.
    intros I Hn Hrun Hm Hp Hwp.
    assert (Fr : forall l' i', node K l' i' -> (l', i') <> (l, i) -> ~ under l' i' l i -> ~ under l i l' i' ->
       forall x, ok l' i' x = true -> m' x = pm s x).
    { intros l' i' Hn' Hne H1 H2 x Hx. apply Hm. destruct (ok l i x) eqn:E; [|reflexivity]. exfalso.
      exact (Hdis l i l' i' x Hn Hn' H2 H1 E Hx). }
    pose proof I as I0. destruct I. constructor; cbn [pc pm plev pp plog]; try assumption.
    - intros l' i' c' Hn' Hrun'. destruct (P_run0 l' i' c' Hn' Hrun') as (H1 & p' & H2 & H3). split; [exact H1|].
      destruct (Z.eq_dec c' c) as [->|Hc].
      + destruct (P_uniq0 _ _ _ _ _ Hn' Hn Hrun' Hrun) as [-> ->]. exists p. rewrite zupd_eq. split; assumption.
      + exists p'. rewrite zupd_neq by assumption. split; [exact H2|].
        eapply wp_frame; [| |exact H3].
        * intros _ ma mb Hab. now apply Hpost.
        * assert (Hne : (l', i') <> (l, i)) by (intros [= -> ->]; congruence). apply Fr; [assumption|assumption| |].
          -- apply (active_apart s ns done fin); try assumption; congruence.
          -- apply (active_apart s ns done fin); try assumption; congruence.
    - intros l' i' Hn' Hf Hpar. apply (Hpost l' i' (pm s)); [assumption| |auto].
      assert (Hne : (l', i') <> (l, i)) by (intros [= -> ->]; congruence).
      apply Fr; [assumption|assumption| |].
      + intros Hu. destruct Hpar as [->|Hpar].
        * destruct Hu as [Hu1 Hu2]. destruct Hn as [Hn1 _]. assert (l = K) by lia. subst l. apply Hne. f_equal.
          apply (under_eq K). split; [lia|exact Hu2].
        * destruct (Nat.eq_dec l' l) as [->|Hd]; [apply Hne; f_equal; now apply (under_eq l)|].
          assert (Hlt : (l' < l)%nat) by (destruct Hu; lia). apply under_step in Hu; [|exact Hlt].
          assert (Hn2 : node K (S l') (i' / 2)) by (apply node_up; [assumption|destruct Hn; lia]).
          destruct (Nat.eq_dec (S l') l) as [<-|Hd2].
          -- apply under_eq in Hu. congruence.
          -- assert (ns (S l') (i' / 2) = Fin); [|congruence].
             apply (reached_below s ns done fin I0 (l - S l') _ _ l i); try assumption; try congruence; destruct Hu; lia.
      + intros Hu. destruct (Nat.eq_dec l l') as [->|Hd]; [apply Hne; f_equal; symmetry; now apply (under_eq l')|].
        assert (ns l i = Fin); [|congruence].
        apply (reached_below s ns done fin I0 (l' - l) _ _ l' i'); try assumption; try congruence; destruct Hu; lia.
    - intros j Hj Hnr. eapply wp_frame; [| |exact (P_nr0 j Hj Hnr)].
      + intros _ ma mb Hab. now apply Hpost.
      + assert (Hne : (0%nat, j) <> (l, i)) by (intros [= <- <-]; congruence). apply Fr; [assumption|assumption| |].
        * intros Hu. destruct (Nat.eq_dec 0 l) as [<-|Hd]; [apply Hne; f_equal; now apply (under_eq 0)|].
          assert (ns 0%nat j = Fin); [|congruence].
          apply (reached_below s ns done fin I0 l _ _ l i); try assumption; try congruence; lia.
        * intros Hu. destruct Hu as [Hu1 Hu2]. assert (l = 0%nat) by lia. subst l. apply Hne. f_equal. symmetry.
          apply (under_eq 0). split; assumption.
    - intros c' st len w Hc'. destruct (Z.eq_dec c' c) as [->|Hc]; [right; eauto|].
      rewrite zupd_neq by assumption. eauto.
    - intros x Hx. rewrite Hm; auto.
  Qed.

  Definition nupd (ns : nat -> Z -> status) (l : nat) (i : Z) (v : status) : nat -> Z -> status :=
    fun l' i' => if Nat.eqb l' l && (i' =? i) then v else ns l' i'.
  Lemma nupd_eq ns l i v : nupd ns l i v l i = v.
  Proof. unfold nupd. now rewrite Nat.eqb_refl, Z.eqb_refl. Qed.
  Lemma nupd_neq ns l i v l' i' : (l', i') <> (l, i) -> nupd ns l i v l' i' = ns l' i'.
  Proof.
    unfold nupd. intros H. destruct (Nat.eqb_spec l' l) as [->|]; [|reflexivity].
    destruct (Z.eqb_spec i' i) as [->|]; [congruence|reflexivity].
  Qed.
  Lemma nupd_cases ns l i v l' i' : ((l', i') = (l, i) /\ nupd ns l i v l' i' = v) \/ ((l', i') <> (l, i) /\ nupd ns l i v l' i' = ns l' i').
  Proof.
    destruct (Nat.eq_dec l' l) as [->|]; [|right; split; [congruence|apply nupd_neq; congruence]].
    destruct (Z.eq_dec i' i) as [->|]; [left; split; [reflexivity|apply nupd_eq]|right; split; [congruence|apply nupd_neq; congruence]].
  Qed.

  Lemma climb_shape d l i : (d = 0%nat /\ climb merge d l i = TDone) \/
    exists d', d = S d' /\ climb merge d l i = TBuddy l i (lift (merge (S l) (i / 2)) (climb merge d' (S l) (i / 2))) TDone.
  Proof. destruct d; [left; auto|right; eauto]. Qed.

  (** how a step of core c changes the status of the nodes *)
  Definition is_buddy (p : tprog T) : Prop := match p with TBuddy _ _ _ _ => True | _ => False end.
  Definition moved (s : pstate T) (c : Z) (ns ns' : nat -> Z -> status) : Prop :=
    (forall l i c', node K l i -> c' <> c -> ns l i = Run c' -> ns' l i = Run c') /\
    (forall l i, node K l i -> ns l i = Fin -> ns' l i = Fin) /\
    (forall l i, node K l i -> ns l i = Run c -> ns' l i = Run c \/ (ns' l i = Fin /\ (l = K \/ is_buddy (pp s c)))).
  Lemma moved_refl s c ns : moved s c ns ns. Proof. split; [|split]; auto. Qed.

  (** finishing a node that is not the last: the bit is set; if the buddy was there, the parent's merge begins *)
  Lemma buddy_step s ns done fin c l i : PInv s ns done fin -> node K l i -> ns l i = Run c -> (l < K)%nat ->
    Post l i (pm s) ->
    let mb := IsBuddyBitSet i (plev s l) in
    let lev := fun l' => if Nat.eqb l' l then fst mb else plev s l' in
    exists ns', PInv (if snd mb
      then mkP (pc s) (pm s) lev (zupd (pp s) c (lift (merge (S l) (i / 2)) (climb merge (K - S l) (S l) (i / 2)))) (plog s ++ [(S l, i / 2)])
      else mkP (pc s) (pm s) lev (zupd (pp s) c TDone) (plog s)) ns' done fin /\
      (forall l' i' c', node K l' i' -> c' <> c -> ns l' i' = Run c' -> ns' l' i' = Run c') /\
      (forall l' i', node K l' i' -> ns l' i' = Fin -> ns' l' i' = Fin) /\
      (forall l' i', node K l' i' -> ns l' i' = Run c -> ns' l' i' = Fin).
  Proof.
    intros I Hn Hrun HlK HP. cbv zeta.
    assert (Hi : 0 <= i) by (destruct Hn; lia).
    pose proof (node_up N K l i Hn HlK) as Hup.
    assert (HbN : node K l (buddy i)) by (apply (node_down N K l (i / 2)); [assumption|apply buddy_div]).
    assert (HnrP : ns (S l) (i / 2) = NR).
    { destruct (ns (S l) (i / 2)) eqn:E; [reflexivity| |].
      - exfalso. assert (ns l i = Fin); [|congruence].
        apply (reached_below s ns done fin I 1 l i (S l) (i / 2)); try assumption; try lia; try congruence. split; [lia|].
        replace (S l - l)%nat with 1%nat by lia. reflexivity.
      - exfalso. assert (ns l i = Fin); [|congruence].
        apply (reached_below s ns done fin I 1 l i (S l) (i / 2)); try assumption; try lia; try congruence. split; [lia|].
        replace (S l - l)%nat with 1%nat by lia. reflexivity. }
    assert (Hbit : Z.testbit (plev s l) (buddy i) = true <-> ns l (buddy i) = Fin) by (apply (P_lev _ _ _ _ I); assumption).
    assert (Hlev : forall l' j, node K l' j -> (l' < K)%nat ->
       Z.testbit ((if Nat.eqb l' l then fst (IsBuddyBitSet i (plev s l)) else plev s l')) j = true <-> nupd ns l i Fin l' j = Fin).
    { intros l' j Hn' Hl'. destruct (Nat.eqb_spec l' l) as [->|Hd].
      - rewrite mask_after by (try assumption; destruct Hn'; lia). rewrite Bool.orb_true_iff.
        rewrite (P_lev _ _ _ _ I l j) by assumption. destruct (Z.eqb_spec j i) as [->|Hj].
        + rewrite nupd_eq. tauto.
        + rewrite nupd_neq by congruence. intuition discriminate.
      - rewrite nupd_neq by congruence. now apply (P_lev _ _ _ _ I). }
    assert (Hrun1 : forall l' i' c', node K l' i' -> nupd ns l i Fin l' i' = Run c' -> ns l' i' = Run c' /\ c' <> c /\ (l', i') <> (l, i)).
    { intros l' i' c' Hn' H. destruct (nupd_cases ns l i Fin l' i') as [[_ E]|[Hne E]]; [congruence|].
      rewrite E in H. split; [exact H|]. split; [|exact Hne]. intros ->.
      destruct (P_uniq _ _ _ _ I _ _ _ _ _ Hn' Hn H Hrun) as [-> ->]. congruence. }
    assert (Hnr1 : forall l' i', nupd ns l i Fin l' i' = NR <-> ns l' i' = NR).
    { intros l' i'. destruct (nupd_cases ns l i Fin l' i') as [[E0 E]|[Hne E]]; rewrite E; [|tauto].
      injection E0 as -> ->. rewrite Hrun. split; discriminate. }
    assert (Hfin1 : forall l' i', nupd ns l i Fin l' i' = Fin <-> ns l' i' = Fin \/ (l', i') = (l, i)).
    { intros l' i'. destruct (nupd_cases ns l i Fin l' i') as [[E0 E]|[Hne E]]; rewrite E; tauto. }
    pose proof (buddy_answer i (plev s l) Hi) as Hans.
    destruct (snd (IsBuddyBitSet i (plev s l))) eqn:Eb; rewrite <- Hans in Hbit.
    - (* the buddy is finished: begin the merge *)
      assert (Hbf : ns l (buddy i) = Fin) by (now apply Hbit).
      assert (HPb : Post l (buddy i) (pm s)).
      { apply (P_fin _ _ _ _ I); try assumption. right. now rewrite buddy_div. }
      assert (Hch : nupd ns l i Fin l (2 * (i / 2)) = Fin /\ nupd ns l i Fin l (2 * (i / 2) + 1) = Fin /\
                    Post l (2 * (i / 2)) (pm s) /\ Post l (2 * (i / 2) + 1) (pm s)).
      { assert (C1 : 2 * (i / 2) = i \/ 2 * (i / 2) = buddy i) by (apply buddy_only; rewrite Z.mul_comm, Z.div_mul by lia; reflexivity).
        assert (C2 : 2 * (i / 2) + 1 = i \/ 2 * (i / 2) + 1 = buddy i).
        { apply buddy_only. replace (2 * (i / 2) + 1) with (1 + (i / 2) * 2) by lia. rewrite Z.div_add by lia. reflexivity. }
        rewrite !Hfin1. destruct C1 as [C1|C1], C2 as [C2|C2]; rewrite ?C2, ?C1; auto. }
      destruct Hch as (Hc1 & Hc2 & HP1 & HP2).
      set (ns2 := nupd (nupd ns l i Fin) (S l) (i / 2) (Run c)). exists ns2.
      assert (Hns2 : forall l' i', ((l', i') = (S l, i / 2) /\ ns2 l' i' = Run c) \/ ((l', i') <> (S l, i / 2) /\ ns2 l' i' = nupd ns l i Fin l' i'))
        by (intros; apply nupd_cases).
      assert (Hfin2 : forall l' i', ns2 l' i' = Fin <-> nupd ns l i Fin l' i' = Fin).
      { intros l' i'. destruct (Hns2 l' i') as [[E0 E]|[E0 E]]; rewrite E; [|tauto]. injection E0 as -> ->.
        split; [discriminate|]. intros H. exfalso. apply Hfin1 in H. destruct H as [H|H]; [congruence|]. injection H as H _. lia. }
      assert (Hnr2 : forall l' i', ns2 l' i' = NR <-> (ns l' i' = NR /\ (l', i') <> (S l, i / 2))).
      { intros l' i'. destruct (Hns2 l' i') as [[E0 E]|[E0 E]]; rewrite E.
        - split; [discriminate|]. tauto.
        - rewrite Hnr1. tauto. }
      pose proof I as I0. split; [|split; [|split]].
      2: { intros l' i' c' Hn' Hc' E. destruct (Hns2 l' i') as [[E0 E1]|[E0 E1]]; [injection E0 as -> ->; congruence|]. rewrite E1. rewrite nupd_neq; [exact E|]. intros [= -> ->]. congruence. }
      2: { intros l' i' Hn' E. apply Hfin2, Hfin1. now left. }
      2: { intros l' i' Hn' E. destruct (P_uniq _ _ _ _ I _ _ _ _ _ Hn' Hn E Hrun) as [-> ->]. apply Hfin2, Hfin1. now right. }
      destruct I. constructor; cbn [pc pm plev pp plog]; try assumption.
      + intros l' j Hn' Hl'. rewrite Hfin2. now apply Hlev.
      + intros j Hj. rewrite Hnr2. rewrite <- P_leaf0 by assumption. split; [tauto|]. intros H. split; [exact H|]. congruence.
      + intros l' j Hn'. rewrite !Hfin2. destruct (Hns2 (S l') j) as [[E0 E]|[E0 E]].
        * injection E0 as -> ->. rewrite E. split; [auto|discriminate].
        * rewrite E, Hnr1. rewrite (P_up0 l' j Hn'). rewrite !Hfin1. split; [tauto|].
          intros [H1 H2]. split.
          -- destruct H1 as [H1|H1]; [exact H1|exfalso]. injection H1 as -> Ei. apply E0. f_equal. rewrite <- Ei. rewrite Z.mul_comm, Z.div_mul by lia. reflexivity.
          -- destruct H2 as [H2|H2]; [exact H2|exfalso]. injection H2 as -> Ei. apply E0. f_equal. rewrite <- Ei.
             replace (2 * j + 1) with (1 + j * 2) by lia. rewrite Z.div_add by lia. reflexivity.
      + intros l' i' c' Hn' H. destruct (Hns2 l' i') as [[E0 E]|[E0 E]]; rewrite E in H.
        * injection E0 as -> ->. injection H as <-. split; [exact (proj1 (P_run0 l i c Hn Hrun))|].
          exists (merge (S l) (i / 2)). rewrite zupd_eq. split; [reflexivity|]. now apply Hmerge.
        * destruct (Hrun1 l' i' c' Hn' H) as (H1 & H2 & H3). rewrite zupd_neq by assumption. now apply P_run0.
      + intros l' i' Hn' Hf Hpar. apply Hfin2, Hfin1 in Hf.
        assert (Hpar' : l' = K \/ (ns (S l') (i' / 2) = NR /\ (S l', i' / 2) <> (S l, i / 2))).
        { destruct Hpar as [Hpar|Hpar]; [now left|right]. now apply Hnr2. }
        destruct Hf as [Hf|Hf].
        * apply P_fin0; try assumption. tauto.
        * injection Hf as -> ->. assumption.
      + intros j Hj Hnr. apply Hnr2 in Hnr. now apply P_nr0.
      + intros c' st len w Hc'. destruct (Z.eq_dec c' c) as [->|Hc].
        * right. exists (S l), (i / 2). split; [assumption|]. apply nupd_eq.
        * rewrite zupd_neq by assumption. destruct (P_own0 c' st len w Hc') as [H|(l' & i' & Hn' & H)]; [now left|right].
          exists l', i'. split; [assumption|]. destruct (Hns2 l' i') as [[E0 E]|[E0 E]].
          -- injection E0 as -> ->. congruence.
          -- rewrite E. rewrite nupd_neq; [assumption|]. intros [= -> ->]. congruence.
      + intros l1 i1 l2 i2 c' Hn1 Hn2 H1 H2.
        destruct (Hns2 l1 i1) as [[E1 F1]|[E1 F1]], (Hns2 l2 i2) as [[E2 F2]|[E2 F2]]; rewrite F1 in H1; rewrite F2 in H2.
        * split; congruence.
        * apply Hrun1 in H2; [|assumption]. exfalso. destruct H2 as (_ & H2 & _). congruence.
        * apply Hrun1 in H1; [|assumption]. exfalso. destruct H1 as (_ & H1 & _). congruence.
        * apply Hrun1 in H1; [|assumption]. apply Hrun1 in H2; [|assumption]. now apply (P_uniq0 _ _ _ _ c').
      + apply NoDup_app_iff_local. split; [assumption|]. split; [repeat constructor; intros []|].
        intros x Hx [<-|[]]. apply P_log0 in Hx. tauto.
      + intros l' i'. rewrite in_app_iff, P_log0. cbn [In].
        destruct (Hns2 l' i') as [[E0 E]|[E0 E]].
        * injection E0 as -> ->. rewrite E. split; [intros _|auto]. split; [assumption|]. split; [lia|discriminate].
        * rewrite E. rewrite Hnr1. split; [|tauto]. intros [H|[H|[]]]; [exact H|congruence].
    - (* not yet: leave it to the buddy *)
      assert (Hbf : ns l (buddy i) <> Fin) by (intros H; apply Hbit in H; discriminate).
      exists (nupd ns l i Fin). pose proof I as I0. split; [|split; [|split]].
      2: { intros l' i' c' Hn' Hc' E. rewrite nupd_neq; [exact E|]. intros [= -> ->]. congruence. }
      2: { intros l' i' Hn' E. apply Hfin1. now left. }
      2: { intros l' i' Hn' E. destruct (P_uniq _ _ _ _ I _ _ _ _ _ Hn' Hn E Hrun) as [-> ->]. apply Hfin1. now right. }
      destruct I. constructor; cbn [pc pm plev pp plog]; try assumption.
      + intros j Hj. rewrite Hnr1. now apply P_leaf0.
      + intros l' j Hn'. rewrite Hnr1, (P_up0 l' j Hn'). rewrite !Hfin1. split; [tauto|].
        intros [H1 H2]. destruct H1 as [H1|H1].
        * destruct H2 as [H2|H2]; [tauto|exfalso]. injection H2 as -> Ei. apply Hbf.
          replace (buddy i) with (2 * j); [exact H1|]. rewrite <- Ei. unfold buddy. rewrite Z.odd_add, Z.odd_mul. cbn. lia.
        * exfalso. injection H1 as -> Ei. destruct H2 as [H2|H2]; [|injection H2; lia].
          apply Hbf. replace (buddy i) with (2 * j + 1); [exact H2|]. rewrite <- Ei. unfold buddy. rewrite Z.odd_mul. cbn. lia.
      + intros l' i' c' Hn' H. destruct (Hrun1 l' i' c' Hn' H) as (H1 & H2 & H3). rewrite zupd_neq by assumption. now apply P_run0.
      + intros l' i' Hn' Hf Hpar. apply Hfin1 in Hf. rewrite Hnr1 in Hpar. destruct Hf as [Hf|Hf]; [now apply P_fin0|].
        injection Hf as -> ->. assumption.
      + intros j Hj Hnr. apply Hnr1 in Hnr. now apply P_nr0.
      + intros c' st len w Hc'. destruct (Z.eq_dec c' c) as [->|Hc]; [left; apply zupd_eq|].
        rewrite zupd_neq by assumption. destruct (P_own0 c' st len w Hc') as [H|(l' & i' & Hn' & H)]; [now left|right].
        exists l', i'. split; [assumption|]. rewrite nupd_neq; [assumption|]. intros [= -> ->]. congruence.
      + intros l1 i1 l2 i2 c' Hn1 Hn2 H1 H2. apply Hrun1 in H1; [|assumption]. apply Hrun1 in H2; [|assumption]. now apply (P_uniq0 _ _ _ _ c').
      + intros l' i'. rewrite P_log0, Hnr1. tauto.
  Qed.

  (** an engine step that does not enter a callback *)
  Lemma engine_step s ns done fin done' fin' c cs : PInv s ns done fin -> CInv IndexMode NL W cs done' fin' ->
    (forall i, node K 0 i -> BlockNext (cit cs) <= i + 1 <-> BlockNext (cit (pc s)) <= i + 1) ->
    (forall c', c' <> c -> cpcs cs c' = cpcs (pc s) c') ->
    (forall st len w, cpcs cs c <> CWork st len w) ->
    (forall l i, node K l i -> ns l i <> Run c) ->
    PInv (mkP cs (pm s) (plev s) (pp s) (plog s)) ns done' fin'.
  Proof.
    intros I HC Hbn Hoth Hnw Hno. destruct I. constructor; cbn [pc pm plev pp plog]; try assumption.
    - intros i Hi. rewrite (P_leaf0 i Hi). symmetry. now apply Hbn.
    - intros l i c' Hn H. assert (Hc : c' <> c) by (intros ->; now apply (Hno l i)).
      rewrite Hoth by exact Hc. now apply P_run0.
    - intros c' st len w H. destruct (Z.eq_dec c' c) as [->|Hc]; [exfalso; now apply (Hnw st len w)|].
      rewrite Hoth in H by exact Hc. eauto.
  Qed.

  Lemma not_work_no_node s ns done fin c : PInv s ns done fin -> (forall st len w, cpcs (pc s) c <> CWork st len w) ->
    forall l i, node K l i -> ns l i <> Run c.
  Proof. intros I H l i Hn E. destruct (P_run _ _ _ _ I l i c Hn E) as ((st & len & w & H1) & _). now apply (H st len w). Qed.

  Lemma pstep_inv c s ns done fin : PInv s ns done fin -> exists ns' done' fin', PInv (Step c s) ns' done' fin' /\ moved s c ns ns'.
  Proof.
    intros I. unfold pstep. pose proof (moved_refl s c ns) as MR.
    assert (HNL : 0 <= NL) by (pose proof (pow2_pos K); nia).
    destruct (cstep_inv IndexMode NL W c (pc s) done fin (P_eng _ _ _ _ I)) as (done' & fin' & HC).
    assert (Hoth : forall c', c' <> c -> cpcs (cstep IndexMode c (pc s)) c' = cpcs (pc s) c') by (intros c' H; now apply cstep_other).
    destruct (cpcs (pc s) c) as [| |st len w|w| |] eqn:Epc.
    - (* CIdle *)
      assert (E : (cstep IndexMode c (pc s) = pc s \/ cstep IndexMode c (pc s) = cgoto (pc s) c CDraw)).
      { unfold cstep. rewrite Epc. destruct (_ && _); auto. }
      assert (Hnw : forall st len w, cpcs (cstep IndexMode c (pc s)) c <> CWork st len w).
      { intros st len w. destruct E as [-> | ->]; [rewrite Epc; discriminate|]. cbn. rewrite zupd_eq. discriminate. }
      assert (G : PInv (mkP (cstep IndexMode c (pc s)) (pm s) (plev s) (pp s) (plog s)) ns done' fin').
      { apply (engine_step s ns done fin done' fin' c); try assumption.
        - intros i _. destruct E as [-> | ->]; reflexivity.
        - apply (not_work_no_node s ns done fin); [assumption|]. intros; rewrite Epc; discriminate. }
      destruct (cpcs (cstep IndexMode c (pc s)) c) eqn:E2; try (now eauto 7). exfalso. now apply (Hnw start len w).
    - (* CDraw *)
      pose proof (P_eng _ _ _ _ I) as HE. set (w := BlockNext (cit (pc s))).
      pose proof (CI_next _ _ _ _ _ _ HE) as Hw0. pose proof (CI_static _ _ _ _ _ _ HE) as HS. fold w in Hw0.
      destruct (valid_dec IndexMode NL w) as [Hv|Hv].
      + assert (Ecs : cpcs (cstep IndexMode c (pc s)) c = CWork (w - 1) 1 w /\ BlockNext (cit (cstep IndexMode c (pc s))) = w + 1).
        { unfold cstep. rewrite Epc. fold w. rewrite (take_valid IndexMode NL W _ w HS Hw0 Hv). cbn. rewrite zupd_eq. auto. }
        destruct Ecs as [Ecs Ebn]. rewrite Ecs.
        unfold valid, w0, tgt in Hv.
        assert (HnL : node K 0 (w - 1)) by (split; [lia|]; rewrite Nat.sub_0_r; lia).
        assert (HnrL : ns 0%nat (w - 1) = NR) by (apply (P_leaf _ _ _ _ I); [assumption|fold w; lia]).
        assert (Hno : forall l i, node K l i -> ns l i <> Run c)
          by (apply (not_work_no_node s ns done fin); [assumption|]; intros; rewrite Epc; discriminate).
        set (ns' := nupd ns 0 (w - 1) (Run c)). exists ns', done', fin'.
        assert (Hns : forall l' i', ((l', i') = (0%nat, w - 1) /\ ns' l' i' = Run c) \/ ((l', i') <> (0%nat, w - 1) /\ ns' l' i' = ns l' i'))
          by (intros; apply nupd_cases).
        assert (Hfin1 : forall l' i', ns' l' i' = Fin <-> ns l' i' = Fin).
        { intros l' i'. destruct (Hns l' i') as [[E0 E]|[E0 E]]; rewrite E; [|tauto]. injection E0 as -> ->. split; congruence. }
        assert (HnrS : forall l' i', ns' (S l') i' = ns (S l') i') by (intros; apply nupd_neq; congruence).
        split; [|split; [|split]].
        2: { intros l i c' Hn' Hc' E. destruct (Hns l i) as [[E0 E1]|[E0 E1]]; [injection E0 as -> ->; congruence|congruence]. }
        2: { intros l i Hn' E. now apply Hfin1. }
        2: { intros l i Hn' E. exfalso. now apply (Hno l i). }
        destruct I. constructor; cbn [pc pm plev pp plog]; try assumption.
        * intros l i Hn Hl. rewrite Hfin1. now apply P_lev0.
        * intros i Hi. rewrite Ebn. destruct (Hns 0%nat i) as [[E0 E]|[E0 E]]; rewrite E.
          -- injection E0 as ->. split; [discriminate|lia].
          -- rewrite P_leaf0 by assumption. fold w. assert (i <> w - 1) by congruence. lia.
        * intros l i Hn. rewrite HnrS, !Hfin1. now apply P_up0.
        * intros l i c' Hn H. destruct (Hns l i) as [[E0 E]|[E0 E]]; rewrite E in H.
          -- injection E0 as -> ->. injection H as <-. split; [eauto|]. rewrite zupd_eq. exists (leaf (w - 1)).
             rewrite Nat.sub_0_r. split; [reflexivity|]. now apply P_nr0.
          -- assert (Hc : c' <> c) by (intros ->; now apply (Hno l i)). rewrite zupd_neq by exact Hc. rewrite Hoth by exact Hc. now apply P_run0.
        * intros l i Hn Hf Hpar. apply P_fin0; [assumption|now apply Hfin1|]. now rewrite HnrS in Hpar.
        * intros i Hi H. destruct (Hns 0%nat i) as [[E0 E]|[E0 E]]; rewrite E in H; [discriminate|]. now apply P_nr0.
        * intros c' st len w' H. destruct (Z.eq_dec c' c) as [->|Hc].
          -- right. exists 0%nat, (w - 1). split; [assumption|apply nupd_eq].
          -- rewrite zupd_neq by exact Hc. rewrite Hoth in H by exact Hc.
             destruct (P_own0 c' st len w' H) as [G|(l & i & Hn & G)]; [now left|right]. exists l, i. split; [assumption|].
             destruct (Hns l i) as [[E0 E]|[E0 E]]; [injection E0 as -> ->; congruence|congruence].
        * intros l1 i1 l2 i2 c' Hn1 Hn2 H1 H2.
          destruct (Hns l1 i1) as [[E1 F1]|[E1 F1]], (Hns l2 i2) as [[E2 F2]|[E2 F2]]; rewrite F1 in H1; rewrite F2 in H2.
          -- split; congruence.
          -- exfalso. apply (Hno l2 i2 Hn2). congruence.
          -- exfalso. apply (Hno l1 i1 Hn1). congruence.
          -- now apply (P_uniq0 _ _ _ _ c').
        * intros l i. rewrite P_log0. destruct l as [|l]; [split; intros (_ & H & _); lia|]. now rewrite HnrS.
      + assert (Ecs : (forall st len w', cpcs (cstep IndexMode c (pc s)) c <> CWork st len w') /\ BlockNext (cit (cstep IndexMode c (pc s))) = w + 1).
        { unfold cstep. rewrite Epc. fold w. rewrite (take_invalid IndexMode NL W _ w HS Hw0 Hv). cbn. rewrite zupd_eq. split; [|reflexivity].
          destruct (c =? 0); discriminate. }
        destruct Ecs as [Hnw Ebn].
        assert (G : PInv (mkP (cstep IndexMode c (pc s)) (pm s) (plev s) (pp s) (plog s)) ns done' fin').
        { apply (engine_step s ns done fin done' fin' c); try assumption.
          - intros i [_ Hi]. rewrite Nat.sub_0_r in Hi. rewrite Ebn. fold w. unfold valid, w0, tgt in Hv. lia.
          - apply (not_work_no_node s ns done fin); [assumption|]. intros; rewrite Epc; discriminate. }
        destruct (cpcs (cstep IndexMode c (pc s)) c) eqn:E2; try (now eauto 7). exfalso. now apply (Hnw start len w0).
    - (* CWork *)
      assert (Hsh : forall l i, node K l i -> ns l i = Run c -> exists p, pp s c = lift p (climb merge (K - l) l i) /\ wp (ok l i) p (fun _ => Post l i) (pm s))
        by (intros l i Hn H; exact (proj2 (P_run _ _ _ _ I l i c Hn H))).
      destruct (pp s c) as [x k|x v k|l0 i0 yes no| |] eqn:Epp.
      + destruct (P_own _ _ _ _ I c st len w Epc) as [E|(l & i & Hn & Hrun)]; [congruence|].
        destruct (Hsh l i Hn Hrun) as (p & Hp & Hwp). destruct p as [a|x' f|x' v' f| |]; cbn [lift] in Hp;
          [destruct (climb_shape (K - l) l i) as [[_ E]|(d' & _ & E)]; rewrite E in Hp; discriminate| |discriminate|discriminate|discriminate].
        injection Hp as <- ->. unfold wp in Hwp. cbn in Hwp. destruct (ok l i x) eqn:Eok; [|contradiction].
        exists ns, done, fin. split; [|exact MR]. apply (mem_step s ns done fin c l i (f (pm s x))); try assumption; auto.
      + destruct (P_own _ _ _ _ I c st len w Epc) as [E|(l & i & Hn & Hrun)]; [congruence|].
        destruct (Hsh l i Hn Hrun) as (p & Hp & Hwp). destruct p as [a|x' f|x' v' f| |]; cbn [lift] in Hp;
          [destruct (climb_shape (K - l) l i) as [[_ E]|(d' & _ & E)]; rewrite E in Hp; discriminate|discriminate| |discriminate|discriminate].
        injection Hp as <- <- ->. unfold wp in Hwp. cbn in Hwp. destruct (ok l i x) eqn:Eok; [|contradiction].
        exists ns, done, fin. split; [|exact MR]. apply (mem_step s ns done fin c l i f); try assumption; auto.
        intros y Hy. rewrite zupd_neq by congruence. reflexivity.
      + destruct (P_own _ _ _ _ I c st len w Epc) as [E|(l & i & Hn & Hrun)]; [congruence|].
        destruct (Hsh l i Hn Hrun) as (p & Hp & Hwp). destruct p as [a|x' f|x' v' f| |]; cbn [lift] in Hp; try discriminate.
        destruct (climb_shape (K - l) l i) as [[_ E]|(d' & Ed & E)]; rewrite E in Hp; [discriminate|].
        injection Hp as -> -> -> ->. assert (Hl : (l < K)%nat) by lia. replace d' with (K - S l)%nat by lia.
        destruct (buddy_step s ns done fin c l i I Hn Hrun Hl Hwp) as (ns' & G & M1 & M2 & M3).
        assert (M : moved s c ns ns').
        { split; [exact M1|]. split; [exact M2|]. intros l' i' Hn' E'. right. split; [now apply M3|]. right. rewrite Epp. exact Logic.I. }
        cbv zeta in G. destruct (IsBuddyBitSet i (plev s l)) as [mask b]. cbn [fst snd] in G. eauto.
      + (* nothing left *)
        assert (Ecs : cpcs (cstep IndexMode c (pc s)) c = CFinish w /\ BlockNext (cit (cstep IndexMode c (pc s))) = BlockNext (cit (pc s))).
        { unfold cstep. rewrite Epc. cbn. rewrite zupd_eq. auto. }
        destruct Ecs as [Ecs Ebn]. rewrite Ecs.
        assert (Hat : forall l i, node K l i -> ns l i = Run c -> l = K /\ 0 <= i < N /\ Post K i (pm s)).
        { intros l i Hn H. destruct (Hsh l i Hn H) as (p & Hp & Hwp).
          destruct p as [a|x' f|x' v' f| |]; cbn [lift] in Hp; try discriminate.
          destruct (climb_shape (K - l) l i) as [[Ed E]|(d' & Ed & E)]; rewrite E in Hp; [|discriminate].
          assert (l = K) by (destruct Hn; lia). subst l. assert (0 <= i < N) by (destruct Hn as [_ Hn]; rewrite Nat.sub_diag in Hn; cbn in Hn; lia).
          auto. }
        assert (HnK : forall i, 0 <= i < N -> node K K i) by (intros i Hi; split; [lia|]; rewrite Nat.sub_diag; cbn; lia).
        assert (Hdec : (exists r, 0 <= r < N /\ ns K r = Run c) \/ forall l i, node K l i -> ns l i <> Run c).
        { destruct (search (fun i => ns K i = Run c)) with (n := N) as [H|H].
          - intros i. destruct (ns K i) as [|c'|]; try (right; discriminate).
            destruct (Z.eq_dec c' c) as [->|Hc]; [now left|right; congruence].
          - now left.
          - right. intros l i Hn E. destruct (Hat l i Hn E) as (-> & Hi & _). now apply (H i). }
        destruct Hdec as [(r & Hr & Hrun)|Hno].
        * destruct (Hat K r (HnK r Hr) Hrun) as (_ & _ & HPK).
          assert (Honly : forall l i, node K l i -> ns l i = Run c -> l = K /\ i = r)
            by (intros l i Hn E; exact (P_uniq _ _ _ _ I _ _ _ _ _ Hn (HnK r Hr) E Hrun)).
          set (ns' := nupd ns K r Fin). exists ns', done', fin'.
          assert (Hns : forall l' i', ((l', i') = (K, r) /\ ns' l' i' = Fin) \/ ((l', i') <> (K, r) /\ ns' l' i' = ns l' i'))
            by (intros; apply nupd_cases).
          assert (Hnr1 : forall l' i', ns' l' i' = NR <-> ns l' i' = NR).
          { intros l' i'. destruct (Hns l' i') as [[E0 E]|[E0 E]]; rewrite E; [|tauto]. injection E0 as -> ->. split; congruence. }
          assert (Hrun1 : forall l' i' c', node K l' i' -> ns' l' i' = Run c' -> ns l' i' = Run c' /\ c' <> c).
          { intros l' i' c' Hn' H. destruct (Hns l' i') as [[E0 E]|[E0 E]]; rewrite E in H; [discriminate|]. split; [exact H|].
            intros ->. destruct (Honly l' i' Hn' H) as (-> & ->). congruence. }
          assert (Hlow : forall l' i', (l' < K)%nat -> ns' l' i' = ns l' i').
          { intros l' i' H. apply nupd_neq. intros [= -> ->]. lia. }
          split; [|split; [|split]].
          2: { intros l i c' Hn' Hc' E. destruct (Hns l i) as [[E0 E1]|[E0 E1]]; [injection E0 as -> ->; congruence|congruence]. }
          2: { intros l i Hn' E. destruct (Hns l i) as [[E0 E1]|[E0 E1]]; [exact E1|congruence]. }
          2: { intros l i Hn' E. destruct (Honly l i Hn' E) as [-> ->]. right. split; [apply nupd_eq|now left]. }
          destruct I. constructor; cbn [pc pm plev pp plog]; try assumption.
          -- intros l i Hn Hl. rewrite Hlow by exact Hl. now apply P_lev0.
          -- intros i Hi. rewrite Hnr1, Ebn. now apply P_leaf0.
          -- intros l i Hn. rewrite Hnr1. rewrite !Hlow by (destruct Hn; lia). now apply P_up0.
          -- intros l i c' Hn H. apply Hrun1 in H; [|assumption]. destruct H as [H Hc]. rewrite Hoth by exact Hc. now apply P_run0.
          -- intros l i Hn H Hpar. rewrite Hnr1 in Hpar. destruct (Hns l i) as [[E0 E]|[E0 E]].
             ++ injection E0 as -> ->. exact HPK.
             ++ rewrite E in H. now apply P_fin0.
          -- intros i Hi H. apply Hnr1 in H. now apply P_nr0.
          -- intros c' st' len' w' H. destruct (Z.eq_dec c' c) as [->|Hc]; [congruence|]. rewrite Hoth in H by exact Hc.
             destruct (P_own0 c' st' len' w' H) as [G|(l & i & Hn & G)]; [now left|right]. exists l, i. split; [assumption|].
             destruct (Hns l i) as [[E0 E]|[E0 E]]; [injection E0 as -> ->; congruence|congruence].
          -- intros l1 i1 l2 i2 c' Hn1 Hn2 H1 H2. apply Hrun1 in H1; [|assumption]. apply Hrun1 in H2; [|assumption].
             now apply (P_uniq0 _ _ _ _ c').
          -- intros l i. rewrite P_log0, Hnr1. tauto.
        * exists ns, done', fin'. split; [|exact MR]. apply (engine_step s ns done fin done' fin' c); try assumption.
          -- intros i _. now rewrite Ebn.
          -- intros; rewrite Ecs; discriminate.
      + destruct (P_own _ _ _ _ I c st len w Epc) as [E|(l & i & Hn & Hrun)]; [congruence|].
        destruct (Hsh l i Hn Hrun) as (p & Hp & Hwp). destruct p as [a|x' f|x' v' f| |]; cbn [lift] in Hp; try discriminate.
        * destruct (climb_shape (K - l) l i) as [[_ E]|(d' & _ & E)]; rewrite E in Hp; discriminate.
        * destruct Hwp.
        * destruct Hwp.
    - (* CFinish *)
      assert (Ecs : cpcs (cstep IndexMode c (pc s)) c = CDraw /\ BlockNext (cit (cstep IndexMode c (pc s))) = BlockNext (cit (pc s))).
      { unfold cstep. rewrite Epc. cbn. rewrite zupd_eq. auto. }
      destruct Ecs as [Ecs Ebn]. rewrite Ecs. exists ns, done', fin'. split; [|exact MR].
      apply (engine_step s ns done fin done' fin' c); try assumption.
      + intros i _. now rewrite Ebn.
      + intros; rewrite Ecs; discriminate.
      + apply (not_work_no_node s ns done fin); [assumption|]. intros; rewrite Epc; discriminate.
    - (* CWait *)
      assert (Ecs : (forall st len w, cpcs (cstep IndexMode c (pc s)) c <> CWork st len w) /\ BlockNext (cit (cstep IndexMode c (pc s))) = BlockNext (cit (pc s))).
      { unfold cstep. rewrite Epc. destruct (_ <? _); cbn; rewrite ?zupd_eq, ?Epc; split; try reflexivity; discriminate. }
      destruct Ecs as [Hnw Ebn].
      assert (G : PInv (mkP (cstep IndexMode c (pc s)) (pm s) (plev s) (pp s) (plog s)) ns done' fin').
      { apply (engine_step s ns done fin done' fin' c); try assumption.
        - intros i _. now rewrite Ebn.
        - apply (not_work_no_node s ns done fin); [assumption|]. intros; rewrite Epc; discriminate. }
      destruct (cpcs (cstep IndexMode c (pc s)) c) eqn:E2; try (now eauto 7). exfalso. now apply (Hnw start len w).
    - (* CReturned *)
      assert (Ecs : cpcs (cstep IndexMode c (pc s)) c = CReturned /\ BlockNext (cit (cstep IndexMode c (pc s))) = BlockNext (cit (pc s))).
      { unfold cstep. rewrite Epc. auto. }
      destruct Ecs as [Ecs Ebn]. rewrite Ecs. exists ns, done', fin'. split; [|exact MR].
      apply (engine_step s ns done fin done' fin' c); try assumption.
      + intros i _. now rewrite Ebn.
      + intros; rewrite Ecs; discriminate.
      + apply (not_work_no_node s ns done fin); [assumption|]. intros; rewrite Epc; discriminate.
  Qed.

  (** ** what the caller gets *)

  Lemma returned_all_fin s ns done fin c : PInv s ns done fin -> cpcs (pc s) c = CReturned ->
    forall l i, node K l i -> ns l i = Fin.
  Proof.
    intros I Hret. assert (HNL : 0 <= NL) by (pose proof (pow2_pos K); nia).
    pose proof (P_eng _ _ _ _ I) as HE.
    assert (Hno : forall l i c', node K l i -> ns l i <> Run c').
    { intros l i c' Hn E. destruct (P_run _ _ _ _ I l i c' Hn E) as ((st & len & w & H1) & _).
      destruct (CI_held _ _ _ _ _ _ HE c' w) as [Hv Hd]; [rewrite H1; reflexivity|].
      apply (CI_done_held _ _ _ _ _ _ HE c' w); [rewrite H1; reflexivity|].
      eapply (returned_done IndexMode NL W); eassumption. }
    intros l. induction l as [|l IH]; intros i Hn.
    - destruct (ns 0%nat i) as [|c'|] eqn:E; [exfalso|exfalso; exact (Hno _ _ _ Hn E)|reflexivity].
      apply (P_leaf _ _ _ _ I) in E; [|assumption]. destruct Hn as [_ Hi]. rewrite Nat.sub_0_r in Hi.
      assert (Hin : In (i + 1) done).
      { eapply (returned_done IndexMode NL W); [eassumption|eassumption|]. unfold valid, w0, tgt. lia. }
      apply (CI_done_dr _ _ _ _ _ _ HE) in Hin. destruct Hin as [_ Hin]. lia.
    - assert (Hr : ns (S l) i <> NR).
      { apply (P_up _ _ _ _ I); [assumption|]. split; apply IH; apply (node_down N K l i); try assumption.
        - rewrite Z.mul_comm, Z.div_mul by lia. reflexivity.
        - replace (2 * i + 1) with (1 + i * 2) by lia. rewrite Z.div_add by lia. reflexivity. }
      destruct (ns (S l) i) as [|c'|] eqn:E; [congruence|exfalso; exact (Hno _ _ _ Hn E)|reflexivity].
  Qed.

  (** the address the callback on this core is about to touch *)
  Definition next_addr (p : tprog T) : option Z := match p with TRd x _ => Some x | TWr x _ _ => Some x | _ => None end.
  Definition in_callback (s : pstate T) (c : Z) : Prop := exists st len w, cpcs (pc s) c = CWork st len w.

  Lemma next_ok s ns done fin c x : PInv s ns done fin -> in_callback s c -> next_addr (pp s c) = Some x ->
    exists l i, node K l i /\ ns l i = Run c /\ ok l i x = true.
  Proof.
    intros I (st & len & w & Hc) Hx. destruct (P_own _ _ _ _ I c st len w Hc) as [E|(l & i & Hn & Hrun)]; [rewrite E in Hx; discriminate|].
    exists l, i. split; [assumption|]. split; [assumption|].
    destruct (P_run _ _ _ _ I l i c Hn Hrun) as (_ & p & Hp & Hwp). rewrite Hp in Hx.
    destruct p as [a|x' f|x' v' f| |]; cbn [lift] in Hx.
    - destruct (climb_shape (K - l) l i) as [[_ E]|(d' & _ & E)]; rewrite E in Hx; discriminate.
    - injection Hx as <-. unfold wp in Hwp. cbn in Hwp. destruct (ok l i x'); [reflexivity|contradiction].
    - injection Hx as <-. unfold wp in Hwp. cbn in Hwp. destruct (ok l i x'); [reflexivity|contradiction].
    - discriminate.
    - discriminate.
  Qed.

  (** no two callbacks are ever about to touch the same address, and none has gone wrong *)
  Lemma safe_at s ns done fin c c' : PInv s ns done fin ->
    in_callback s c -> pp s c <> TBad /\
    (c' <> c -> in_callback s c' -> forall x, next_addr (pp s c) = Some x -> next_addr (pp s c') <> Some x).
  Proof.
    intros I Hc. split.
    - destruct Hc as (st & len & w & Hc). destruct (P_own _ _ _ _ I c st len w Hc) as [E|(l & i & Hn & Hrun)]; [congruence|].
      destruct (P_run _ _ _ _ I l i c Hn Hrun) as (_ & p & Hp & Hwp). rewrite Hp.
      destruct p as [a|x' f|x' v' f| |]; cbn [lift]; try discriminate.
      + destruct (climb_shape (K - l) l i) as [[_ E]|(d' & _ & E)]; rewrite E; discriminate.
      + destruct Hwp.
      + destruct Hwp.
    - intros Hne Hc' x Hx Hx'.
      destruct (next_ok s ns done fin c x I Hc Hx) as (l & i & Hn & Hr & Ho).
      destruct (next_ok s ns done fin c' x I Hc' Hx') as (l' & i' & Hn' & Hr' & Ho').
      assert (Hd : (l, i) <> (l', i')) by (intros [= -> ->]; congruence).
      apply (Hdis l i l' i' x); try assumption;
        apply (active_apart s ns done fin); try assumption; congruence.
  Qed.

  (** a merge begins only when both its halves are finished: at that moment both halves' results are in place *)
  Lemma halves_at s ns done fin c l i yes no : PInv s ns done fin ->
    in_callback s c -> pp s c = TBuddy l i yes no -> snd (IsBuddyBitSet i (plev s l)) = true ->
    node K l i /\ ns l i = Run c /\ (l < K)%nat /\ node K l (buddy i) /\ ns l (buddy i) = Fin /\ ns (S l) (i / 2) = NR /\ Post l i (pm s) /\ Post l (buddy i) (pm s).
  Proof.
    intros I (st & len & w & Hc) Hpp Hb.
    destruct (P_own _ _ _ _ I c st len w Hc) as [E|(l0 & i0 & Hn & Hrun)]; [congruence|].
    destruct (P_run _ _ _ _ I l0 i0 c Hn Hrun) as (_ & p & Hp & Hwp). rewrite Hpp in Hp.
    destruct p as [a|x' f|x' v' f| |]; cbn [lift] in Hp; try discriminate.
    destruct (climb_shape (K - l0) l0 i0) as [[_ E]|(d' & Ed & E)]; rewrite E in Hp; [discriminate|].
    injection Hp as -> -> -> ->. assert (Hl : (l0 < K)%nat) by lia.
    assert (Hi : 0 <= i0) by (destruct Hn; lia).
    pose proof (node_up N K l0 i0 Hn Hl) as Hup.
    assert (HbN : node K l0 (buddy i0)) by (apply (node_down N K l0 (i0 / 2)); [assumption|apply buddy_div]).
    rewrite buddy_answer in Hb by assumption. apply (P_lev _ _ _ _ I) in Hb; try assumption.
    assert (HnrP : ns (S l0) (i0 / 2) = NR).
    { assert (Hx : ~ (ns (S l0) (i0 / 2) <> NR)); [|destruct (ns (S l0) (i0 / 2)); [reflexivity|exfalso; apply Hx; discriminate|exfalso; apply Hx; discriminate]].
      intros Hx. assert (ns l0 i0 = Fin); [|congruence].
      apply (reached_below s ns done fin I 1 l0 i0 (S l0) (i0 / 2)); try assumption; try lia. split; [lia|].
      replace (S l0 - l0)%nat with 1%nat by lia. reflexivity. }
    assert (HPb : Post l0 (buddy i0) (pm s)) by (apply (P_fin _ _ _ _ I); try assumption; right; now rewrite buddy_div).
    repeat (split; [assumption|]). exact HPb.
  Qed.

  (** ** the call can always still return *)
  Definition holding (p : cpc) : Prop := match p with CWork _ _ _ | CFinish _ => True | _ => False end.
  Definition Ok (s : pstate T) : Prop := exists ns done fin, PInv s ns done fin.
  Notation Run_ := (srun leaf merge K).
  Lemma run_cons s c sch : Run_ s (c :: sch) = Run_ (Step c s) sch. Proof. reflexivity. Qed.
  Lemma run_app s a b : Run_ s (a ++ b) = Run_ (Run_ s a) b. Proof. apply fold_left_app. Qed.
  Lemma ok_step s c : Ok s -> Ok (Step c s).
  Proof. intros (ns & d & f & I). destruct (pstep_inv c s ns d f I) as (ns' & d' & f' & I' & _). now exists ns', d', f'. Qed.

  Lemma step_work c s : in_callback s c -> pp s c <> TDone -> pc (Step c s) = pc s.
  Proof.
    intros (st & len & w & H) Hp. unfold pstep. rewrite H. destruct (pp s c); try reflexivity; [|congruence].
    destruct (IsBuddyBitSet i (plev s l)) as [mask []]; reflexivity.
  Qed.

  Lemma finish_callback c : forall p s, Ok s -> in_callback s c -> pp s c = p ->
    exists sch, let s' := Run_ s sch in Ok s' /\ cpcs (pc s') c = CDraw /\
      (forall c', c' <> c -> cpcs (pc s') c' = cpcs (pc s) c') /\ BlockNext (cit (pc s')) = BlockNext (cit (pc s)).
  Proof.
    assert (Hsub : forall s, Ok s -> in_callback s c -> pp s c <> TDone -> pp s c <> TBad ->
       (exists sch, let s' := Run_ (Step c s) sch in Ok s' /\ cpcs (pc s') c = CDraw /\
         (forall c', c' <> c -> cpcs (pc s') c' = cpcs (pc (Step c s)) c') /\ BlockNext (cit (pc s')) = BlockNext (cit (pc (Step c s)))) ->
       exists sch, let s' := Run_ s sch in Ok s' /\ cpcs (pc s') c = CDraw /\
         (forall c', c' <> c -> cpcs (pc s') c' = cpcs (pc s) c') /\ BlockNext (cit (pc s')) = BlockNext (cit (pc s))).
    { intros s HO Hc H1 H2 (sch & G). exists (c :: sch). rewrite run_cons. rewrite (step_work c s Hc H1) in G. exact G. }
    induction p as [x k IH|x v k IH|l i yes IHy no IHn| |]; intros s HO Hc Hp.
    - apply Hsub; try assumption; try congruence. pose proof (step_work c s Hc ltac:(congruence)) as E.
      apply (IH (pm s x)); [now apply ok_step|unfold in_callback; rewrite E; exact Hc|].
      destruct Hc as (st & len & w & Hc). unfold pstep. rewrite Hc, Hp. apply zupd_eq.
    - apply Hsub; try assumption; try congruence. pose proof (step_work c s Hc ltac:(congruence)) as E.
      apply IH; [now apply ok_step|unfold in_callback; rewrite E; exact Hc|].
      destruct Hc as (st & len & w & Hc). unfold pstep. rewrite Hc, Hp. apply zupd_eq.
    - apply Hsub; try assumption; try congruence. pose proof (step_work c s Hc ltac:(congruence)) as E.
      assert (Hc' : in_callback (Step c s) c) by (unfold in_callback; rewrite E; exact Hc).
      pose proof Hc as (st & len & w & Hw).
      destruct (snd (IsBuddyBitSet i (plev s l))) eqn:Eb.
      + apply IHy; [now apply ok_step|exact Hc'|]. unfold pstep. rewrite Hw, Hp.
        destruct (IsBuddyBitSet i (plev s l)) as [mask b]. cbn in Eb. rewrite Eb. apply zupd_eq.
      + apply IHn; [now apply ok_step|exact Hc'|]. unfold pstep. rewrite Hw, Hp.
        destruct (IsBuddyBitSet i (plev s l)) as [mask b]. cbn in Eb. rewrite Eb. apply zupd_eq.
    - destruct Hc as (st & len & w & Hc).
      assert (E1 : pc (Step c s) = cstep IndexMode c (pc s) /\ cpcs (pc (Step c s)) c = CFinish w).
      { unfold pstep. rewrite Hc, Hp. assert (E : cpcs (cstep IndexMode c (pc s)) c = CFinish w).
        { unfold cstep. rewrite Hc. cbn. apply zupd_eq. } rewrite E. split; [reflexivity|exact E]. }
      destruct E1 as [E1 E2].
      assert (E3 : pc (Step c (Step c s)) = cstep IndexMode c (cstep IndexMode c (pc s)) /\ cpcs (pc (Step c (Step c s))) c = CDraw).
      { remember (Step c s) as s1. unfold pstep. rewrite E2. assert (E : cpcs (cstep IndexMode c (pc s1)) c = CDraw).
        { unfold cstep. rewrite E2. cbn. apply zupd_eq. } rewrite E. cbn [pc]. rewrite E1 in *. split; [reflexivity|exact E]. }
      destruct E3 as [E3 E4]. exists [c; c]. cbn zeta. rewrite !run_cons. cbn [srun fold_left].
      split; [now apply ok_step, ok_step|]. split; [exact E4|]. rewrite E3. split.
      + intros c' Hc'. rewrite !cstep_other by exact Hc'. reflexivity.
      + rewrite E1 in E2. unfold cstep at 1. rewrite E2. cbn. unfold cstep. rewrite Hc. reflexivity.
    - exfalso. destruct HO as (ns & d & f & I). destruct Hc as (st & len & w & Hc).
      destruct (P_own _ _ _ _ I c st len w Hc) as [E|(l & i & Hn & Hrun)]; [congruence|].
      destruct (P_run _ _ _ _ I l i c Hn Hrun) as (_ & q & Hq & Hwp). rewrite Hp in Hq.
      destruct q as [a|x' f'|x' v' f'| |]; cbn [lift] in Hq; try discriminate.
      + destruct (climb_shape (K - l) l i) as [[_ E]|(d' & _ & E)]; rewrite E in Hq; discriminate.
      + destruct Hwp.
      + destruct Hwp.
  Qed.

  Lemma release c s : Ok s ->
    exists sch, let s' := Run_ s sch in Ok s' /\ ~ holding (cpcs (pc s') c) /\
      (cpcs (pc s) c = CDraw -> cpcs (pc s') c = CDraw) /\
      (holding (cpcs (pc s) c) -> cpcs (pc s') c = CDraw) /\ (~ holding (cpcs (pc s) c) -> cpcs (pc s') c = cpcs (pc s) c) /\
      (forall c', c' <> c -> cpcs (pc s') c' = cpcs (pc s) c') /\ BlockNext (cit (pc s')) = BlockNext (cit (pc s)).
  Proof.
    intros HO. destruct (cpcs (pc s) c) as [| |st len w|w| |] eqn:Hc.
    - exists []. cbn. rewrite Hc. cbn. split; [exact HO|]. repeat split; auto; try (intros X; now destruct X).
    - exists []. cbn. rewrite Hc. cbn. split; [exact HO|]. repeat split; auto; try (intros X; now destruct X).
    - destruct (finish_callback c (pp s c) s HO) as (sch & H1 & H2 & H3 & H4); [exists st, len, w; exact Hc|reflexivity|].
      exists sch. cbn zeta in *. rewrite H2. cbn. split; [exact H1|]. repeat split; auto. intros X. now destruct X.
    - assert (E4 : pc (Step c s) = cstep IndexMode c (pc s) /\ cpcs (pc (Step c s)) c = CDraw).
      { unfold pstep. rewrite Hc. assert (E : cpcs (cstep IndexMode c (pc s)) c = CDraw).
        { unfold cstep. rewrite Hc. cbn. apply zupd_eq. } rewrite E. split; [reflexivity|exact E]. }
      destruct E4 as [E3 E4]. exists [c]. cbn zeta. rewrite run_cons. cbn [srun fold_left]. rewrite E4.
      split; [now apply ok_step|]. repeat split; auto; try (intros X; now destruct X).
      + intros c' Hc'. rewrite E3. now apply cstep_other.
      + rewrite E3. unfold cstep. rewrite Hc. reflexivity.
    - exists []. cbn. rewrite Hc. cbn. split; [exact HO|]. repeat split; auto; try (intros X; now destruct X).
    - exists []. cbn. rewrite Hc. cbn. split; [exact HO|]. repeat split; auto; try (intros X; now destruct X).
  Qed.

  Lemma release_all j : 0 <= j -> forall s, Ok s ->
    exists sch, let s' := Run_ s sch in Ok s' /\ (forall c, 0 <= c < j -> ~ holding (cpcs (pc s') c)) /\
      (forall c, ~ holding (cpcs (pc s) c) -> cpcs (pc s') c = cpcs (pc s) c) /\
      (forall c, holding (cpcs (pc s) c) -> cpcs (pc s') c = CDraw \/ cpcs (pc s') c = cpcs (pc s) c) /\
      BlockNext (cit (pc s')) = BlockNext (cit (pc s)).
  Proof.
    intros Hj. pattern j. apply natlike_ind; [| |exact Hj].
    - intros s HO. exists []. cbn. split; [exact HO|]. split; [intros; lia|]. auto.
    - intros x Hx IH s HO. destruct (IH s HO) as (sch & H1 & H2 & H3 & H4 & H5). cbn zeta in *.
      destruct (release x (Run_ s sch) H1) as (sch2 & G1 & G2 & G3 & G4 & G5 & G6 & G7). cbn zeta in *.
      exists (sch ++ sch2). rewrite run_app. split; [exact G1|]. split; [|split; [|split]].
      + intros c Hc. destruct (Z.eq_dec c x) as [->|Hne]; [exact G2|]. rewrite G6 by exact Hne. apply H2. lia.
      + intros c Hc. destruct (Z.eq_dec c x) as [->|Hne].
        * rewrite G5; [now apply H3|]. now rewrite H3.
        * rewrite G6 by exact Hne. now apply H3.
      + intros c Hc. destruct (Z.eq_dec c x) as [->|Hne].
        * destruct (H4 x Hc) as [E|E]; [left; now apply G3|left]. apply G4. now rewrite E.
        * rewrite G6 by exact Hne. now apply H4.
      + congruence.
  Qed.

  (** a core that draws until the parts are used up *)
  Lemma drain c : forall k s, 0 <= k -> Ok s -> cpcs (pc s) c = CDraw -> NL + 1 - BlockNext (cit (pc s)) <= k ->
    exists sch, let s' := Run_ s sch in Ok s' /\ cpcs (pc s') c = CDraw /\ (forall c', c' <> c -> cpcs (pc s') c' = cpcs (pc s) c' ) /\
       NL + 1 <= BlockNext (cit (pc s')) \/
       (1 <= c /\ let s' := Run_ s sch in Ok s' /\ cpcs (pc s') c = CDraw /\ (forall c', c' <> c -> cpcs (pc s') c' = cpcs (pc s) c' ) /\
       NL + 1 <= BlockNext (cit (pc s'))) \/ c <= 0.
  Proof.
    intros k s Hk. revert s. pattern k. apply natlike_ind; [| |exact Hk].
    - intros s HO Hc Hb. exists []. left. cbn. split; [exact HO|]. split; [exact Hc|]. split; [auto|lia].
    - intros x Hx IH s HO Hc Hb.
      destruct (Z_le_dec c 0) as [Hc0|Hc0]; [exists []; right; right; exact Hc0|].
      destruct (Z_le_dec (NL + 1) (BlockNext (cit (pc s)))) as [Hd|Hd].
      { exists []. left. cbn. split; [exact HO|]. split; [exact Hc|]. split; [auto|lia]. }
      assert (HS : exists sch, let s1 := Run_ s sch in Ok s1 /\ cpcs (pc s1) c = CDraw /\ (forall c', c' <> c -> cpcs (pc s1) c' = cpcs (pc s) c') /\
                    BlockNext (cit (pc s1)) = BlockNext (cit (pc s)) + 1).
      { pose proof HO as (ns & d & f & I). pose proof (P_eng _ _ _ _ I) as HE.
        pose proof (CI_next _ _ _ _ _ _ HE) as Hw0. pose proof (CI_static _ _ _ _ _ _ HE) as HSt.
        set (w := BlockNext (cit (pc s))) in *. pose proof (ok_step s c HO) as HO1.
        destruct (valid_dec IndexMode NL w) as [Hv|Hv].
        - assert (E : pc (Step c s) = cstep IndexMode c (pc s) /\ in_callback (Step c s) c /\ BlockNext (cit (cstep IndexMode c (pc s))) = w + 1).
          { assert (Ecs : cpcs (cstep IndexMode c (pc s)) c = CWork (w - 1) 1 w /\ BlockNext (cit (cstep IndexMode c (pc s))) = w + 1).
            { unfold cstep. rewrite Hc. fold w. rewrite (take_valid IndexMode NL W _ w HSt Hw0 Hv). cbn. rewrite zupd_eq. auto. }
            destruct Ecs as [Ecs Ebn]. unfold in_callback, pstep. rewrite Hc, Ecs. cbn [pc]. rewrite Ecs. split; [reflexivity|]. split; [eauto|exact Ebn]. }
          destruct E as (E1 & E2 & E3).
          destruct (finish_callback c _ (Step c s) HO1 E2 eq_refl) as (sch & G1 & G2 & G3 & G4).
          exists (c :: sch). cbn zeta in *. rewrite run_cons. split; [exact G1|]. split; [exact G2|]. split.
          + intros c' Hc'. rewrite G3 by exact Hc'. rewrite E1. now apply cstep_other.
          + rewrite G4, E1. exact E3.
        - assert (E : pc (Step c s) = cstep IndexMode c (pc s) /\ cpcs (cstep IndexMode c (pc s)) c = CIdle /\
             BlockNext (cit (cstep IndexMode c (pc s))) = w + 1 /\ ThreadWakeup (cit (cstep IndexMode c (pc s))) = W).
          { assert (Ecs : cpcs (cstep IndexMode c (pc s)) c = CIdle /\ BlockNext (cit (cstep IndexMode c (pc s))) = w + 1 /\ ThreadWakeup (cit (cstep IndexMode c (pc s))) = W).
            { unfold cstep. rewrite Hc. fold w. rewrite (take_invalid IndexMode NL W _ w HSt Hw0 Hv). cbn. rewrite zupd_eq.
              destruct (Z.eqb_spec c 0); [lia|]. split; [reflexivity|]. split; [reflexivity|]. destruct HSt as (_ & S2 & _). exact S2. }
            destruct Ecs as [Ecs Ebn]. unfold pstep. rewrite Hc, Ecs. cbn [pc]. auto. }
          destruct E as (E1 & E2 & E3 & E5).
          pose proof (CI_pc _ _ _ _ _ _ HE c) as Hpc. rewrite Hc in Hpc. cbn in Hpc.
          assert (F1 : pc (Step c (Step c s)) = cgoto (pc (Step c s)) c CDraw).
          { remember (Step c s) as s1. unfold pstep. rewrite E1, E2.
            assert (X : cstep IndexMode c (cstep IndexMode c (pc s)) = cgoto (cstep IndexMode c (pc s)) c CDraw).
            { remember (cstep IndexMode c (pc s)) as cs1. unfold cstep. rewrite E2, E5.
              replace ((1 <=? c) && (c <=? W)) with true by lia. reflexivity. }
            rewrite X. cbn [cgoto cpcs]. rewrite zupd_eq. reflexivity. }
          exists [c; c]. cbn zeta. rewrite !run_cons. cbn [srun fold_left]. split; [now apply ok_step|]. rewrite F1.
          split; [cbn; apply zupd_eq|]. split.
          + intros c' Hc'. cbn. rewrite zupd_neq by exact Hc'. rewrite E1. now apply cstep_other.
          + cbn. rewrite E1. exact E3. }
      destruct HS as (sch & G1 & G2 & G3 & G4). cbn zeta in *.
      destruct (IH (Run_ s sch) G1 G2 ltac:(lia)) as (sch2 & [R|[R|R]]); [| |lia].
      + exists (sch ++ sch2). left. cbn zeta in *. rewrite run_app. destruct R as (R1 & R2 & R3 & R4).
        split; [exact R1|]. split; [exact R2|]. split; [|exact R4]. intros c' Hc'. rewrite R3, G3 by exact Hc'. reflexivity.
      + exists (sch ++ sch2). left. cbn zeta in *. rewrite run_app. destruct R as (_ & R1 & R2 & R3 & R4).
        split; [exact R1|]. split; [exact R2|]. split; [|exact R4]. intros c' Hc'. rewrite R3, G3 by exact Hc'. reflexivity.
  Qed.

  (** with at least one worker, the call can still return from every state it can get into *)
  Lemma sched_return : 1 <= W -> forall s0, Ok s0 -> exists sch, cpcs (pc (Run_ s0 sch)) 0 = CReturned.
  Proof.
    intros HW1 s0 HO.
    {
      (* core 1 to CDraw *)
      destruct (release 1 s0 HO) as (sa & A1 & A2 & A3 & A4 & A5 & A6 & A7). cbn zeta in *. set (s1 := Run_ s0 sa) in *.
      assert (HB : exists sb, let s2 := Run_ s1 sb in Ok s2 /\ cpcs (pc s2) 1 = CDraw).
      { pose proof A1 as (ns & d & f & I). pose proof (P_eng _ _ _ _ I) as HE.
        pose proof (CI_pc _ _ _ _ _ _ HE 1) as Hpc. pose proof (CI_static _ _ _ _ _ _ HE) as (_ & S2 & _).
        destruct (cpcs (pc s1) 1) as [| |st len w|w| |] eqn:E; cbn in A2, Hpc; try tauto; try lia.
        - exists [1]. cbn zeta. rewrite run_cons. cbn [srun fold_left]. split; [now apply ok_step|].
          unfold pstep. rewrite E. assert (X : cstep IndexMode 1 (pc s1) = cgoto (pc s1) 1 CDraw).
          { unfold cstep. rewrite E, S2. replace ((1 <=? 1) && (1 <=? W)) with true by lia. reflexivity. }
          rewrite X. cbn [cgoto cpcs]. rewrite zupd_eq. cbn. apply zupd_eq.
        - exists []. cbn. auto. }
      destruct HB as (sb & B1 & B2). cbn zeta in *. set (s2 := Run_ s1 sb) in *.
      destruct (drain 1 (Z.max 0 (NL + 1 - BlockNext (cit (pc s2)))) s2 ltac:(lia) B1 B2 ltac:(lia)) as (sc & [R|[R|R]]); [| |lia].
      2: destruct R as [_ R].
      all: cbn zeta in R; destruct R as (C1 & C2 & C3 & C4); set (s3 := Run_ s2 sc) in *;
        destruct (release_all (W + 1) ltac:(lia) s3 C1) as (sd & D1 & D2 & D3 & D4 & D5); cbn zeta in *; set (s4 := Run_ s3 sd) in *.
      all: assert (HF : exists se, cpcs (pc (Run_ s4 se)) 0 = CReturned).
      all: try (destruct HF as (se & HF); exists (sa ++ sb ++ sc ++ sd ++ se); rewrite !run_app; exact HF).
      all: assert (Hwait : exists se, let s5 := Run_ s4 se in Ok s5 /\ (cpcs (pc s5) 0 = CWait \/ cpcs (pc s5) 0 = CReturned) /\
             (forall c, ~ holding (cpcs (pc s5) c)) /\ NL + 1 <= BlockNext (cit (pc s5))).
      1,3: pose proof D1 as (ns & d & f & I); pose proof (P_eng _ _ _ _ I) as HE;
        assert (Hnh : forall c, ~ holding (cpcs (pc s4) c))
          by (intros c Hh; pose proof (CI_pc _ _ _ _ _ _ HE c) as Hpc; destruct (Z_le_dec 0 c) as [X|X];
              [destruct (Z_lt_dec c (W + 1)) as [Y|Y]; [exact (D2 c ltac:(lia) Hh)|]|];
              destruct (cpcs (pc s4) c); cbn in Hh, Hpc; try contradiction; lia);
        pose proof (CI_pc _ _ _ _ _ _ HE 0) as Hpc; destruct (cpcs (pc s4) 0) as [| |st len w|w| |] eqn:E; cbn in Hpc;
        [lia| |exfalso; apply (Hnh 0); rewrite E; exact Logic.I|exfalso; apply (Hnh 0); rewrite E; exact Logic.I
         |exists []; cbn; split; [exact D1|split; [left; exact E|split; [exact Hnh|lia]]]
         |exists []; cbn; split; [exact D1|split; [right; exact E|split; [exact Hnh|lia]]]];
        pose proof (CI_next _ _ _ _ _ _ HE) as Hw0; pose proof (CI_static _ _ _ _ _ _ HE) as HSt;
        assert (Hv : ~ valid IndexMode NL (BlockNext (cit (pc s4)))) by (unfold valid, w0, tgt; lia);
        assert (Ecs : cpcs (cstep IndexMode 0 (pc s4)) 0 = CWait /\ BlockNext (cit (cstep IndexMode 0 (pc s4))) = BlockNext (cit (pc s4)) + 1)
          by (unfold cstep; rewrite E; rewrite (take_invalid IndexMode NL W _ _ HSt Hw0 Hv); cbn; rewrite zupd_eq; auto);
        destruct Ecs as [Ecs Ebn];
        assert (Epc : pc (Step 0 s4) = cstep IndexMode 0 (pc s4)) by (unfold pstep; rewrite E, Ecs; reflexivity);
        exists [0]; cbn zeta; rewrite run_cons; cbn [srun fold_left]; split; [now apply ok_step|];
        rewrite Epc; split; [left; exact Ecs|]; split; [|lia];
        intros c; destruct (Z.eq_dec c 0) as [->|Hc0]; [rewrite Ecs; cbn; tauto|rewrite cstep_other by exact Hc0; apply Hnh].
      all: destruct Hwait as (se & E1 & E2 & E3 & E4); cbn zeta in *; set (s5 := Run_ s4 se) in *;
        destruct E2 as [E2|E2]; [|exists se; exact E2];
        pose proof E1 as (ns & d & f & I); pose proof (P_eng _ _ _ _ I) as HE;
        exists (se ++ [0]); rewrite run_app; fold s5; cbn [srun fold_left]; unfold pstep; rewrite E2;
        assert (X : cstep IndexMode 0 (pc s5) = cgoto (pc s5) 0 CReturned);
        [|rewrite X; cbn [cgoto cpcs]; rewrite zupd_eq; cbn; apply zupd_eq];
        unfold cstep; rewrite E2; rewrite (target_tgt IndexMode NL W _ (CI_static _ _ _ _ _ _ HE)); unfold tgt;
        assert (Hlen : NL <= BlocksCompleted (cit (pc s5)));
        [|destruct (Z.ltb_spec (BlocksCompleted (cit (pc s5))) NL); [lia|reflexivity]];
        rewrite <- (CI_done_len _ _ _ _ _ _ HE);
        assert (Hinc : incl (zrange 1 (1 + NL)) d);
        [intros w Hw; apply zrange_In in Hw;
         destruct (CI_cov _ _ _ _ _ _ HE w) as [H|(c & H)]; [split; [unfold valid, w0, tgt; lia|lia]|exact H|];
         exfalso; apply (E3 c); destruct (cpcs (pc s5) c); cbn in H; try contradiction; exact Logic.I|];
        pose proof (NoDup_incl_length (zrange_NoDup 1 (1 + NL)) Hinc) as HL; rewrite zrange_length in HL;
        pose proof (pow2_pos K); nia. }
  Qed.
  (** ** store queues change nothing the program or the caller can see *)
  Record Rel (t : qstate T) (s : pstate T) (ns : nat -> Z -> status) : Prop := {
    R_pc : pc (qs t) = pc s; R_lev : plev (qs t) = plev s; R_pp : pp (qs t) = pp s; R_log : plog (qs t) = plog s;
    R_in : forall c x v, In (x, v) (qbuf t c) -> holding (cpcs (pc s) c) /\
      exists l i, node K l i /\ ok l i x = true /\ (ns l i = Run c \/ (l = K /\ ns l i = Fin));
    R_new : forall c x v, newest (qbuf t c) x = Some v -> pm s x = v;
    R_old : forall x, (forall c, newest (qbuf t c) x = None) -> pm s x = pm (qs t) x
  }.
  Lemma newest_In (l : list (Z * T)) x v : newest l x = Some v -> In (x, v) l.
  Proof.
    induction l as [|[y w] l IH]; cbn [newest]; [discriminate|]. destruct (newest l x) as [w'|]; [intros [= ->]; right; now apply IH|].
    destruct (Z.eqb_spec x y) as [->|]; [intros [= ->]; now left|discriminate].
  Qed.
  Lemma newest_snoc (l : list (Z * T)) x v y : newest (l ++ [(x, v)]) y = if y =? x then Some v else newest l y.
  Proof.
    induction l as [|[z w] l IH]; cbn [newest app]; [destruct (y =? x); reflexivity|]. rewrite IH. destruct (y =? x); [reflexivity|]. reflexivity.
  Qed.

  (** another core's queue does not touch a running node's addresses *)
  Lemma other_buffer t s ns done fin c c' l i x : PInv s ns done fin -> Rel t s ns -> node K l i -> ns l i = Run c -> ok l i x = true ->
    c' <> c -> newest (qbuf t c') x = None.
  Proof.
    intros I Q Hn Hr Hx Hne. destruct (newest (qbuf t c') x) as [v|] eqn:E; [|reflexivity]. exfalso.
    destruct (R_in _ _ _ Q _ _ _ (newest_In _ _ _ E)) as (_ & l' & i' & Hn' & Hx' & Hs).
    assert (Hd : (l, i) <> (l', i')) by (intros [= <- <-]; destruct Hs as [Hs|[_ Hs]]; congruence).
    apply (Hdis l i l' i' x Hn Hn'); try assumption.
    - apply (active_apart s ns done fin); try assumption; destruct Hs as [Hs|[_ Hs]]; congruence.
    - destruct Hs as [Hs|[-> Hs]].
      + apply (active_apart s ns done fin); try assumption; congruence.
      + intros [U1 U2]. destruct Hn as [Hn _]. assert (l = K) by lia. subst l. apply Hd. f_equal. symmetry. apply (under_eq K). split; assumption.
  Qed.
  (** nor the addresses of a finished node whose parent has not begun *)
  Lemma finished_buffer t s ns done fin c' l i x : PInv s ns done fin -> Rel t s ns -> node K l i -> ns l i = Fin -> (l < K)%nat -> ns (S l) (i / 2) = NR ->
    ok l i x = true -> newest (qbuf t c') x = None.
  Proof.
    intros I Q Hn Hf HlK Hp Hx. destruct (newest (qbuf t c') x) as [v|] eqn:E; [|reflexivity]. exfalso.
    destruct (R_in _ _ _ Q _ _ _ (newest_In _ _ _ E)) as (_ & l' & i' & Hn' & Hx' & Hs).
    assert (Hd : (l, i) <> (l', i')) by (intros [= <- <-]; destruct Hs as [Hs|[-> Hs]]; [congruence|lia]).
    assert (Hnr : ns l' i' <> NR) by (destruct Hs as [Hs|[_ Hs]]; congruence).
    pose proof (node_up N K l i Hn HlK) as Hup.
    apply (Hdis l i l' i' x Hn Hn'); try assumption.
    - intros Hu. destruct (Nat.eq_dec l l') as [<-|Hdl]; [apply Hd; f_equal; now apply (under_eq l)|].
      assert (Hlt : (l < l')%nat) by (destruct Hu; lia). apply under_step in Hu; [|exact Hlt].
      destruct (Nat.eq_dec (S l) l') as [<-|Hd2]; [apply under_eq in Hu; subst i'; congruence|].
      assert (ns (S l) (i / 2) = Fin); [|congruence].
      apply (reached_below s ns done fin I (l' - S l) _ _ l' i'); try assumption; destruct Hu; lia.
    - intros Hu. destruct (Nat.eq_dec l' l) as [->|Hdl]; [apply Hd; f_equal; symmetry; now apply (under_eq l)|].
      assert (F : ns l' i' = Fin) by (apply (reached_below s ns done fin I (l - l') _ _ l i); try assumption; try congruence; destruct Hu; lia).
      destruct Hs as [Hs|[-> Hs]]; [congruence|]. destruct Hu; lia.
  Qed.

  Lemma rel_start : Rel (mkQ (pstart NL W zz m0) (fun _ => [])) (pstart NL W zz m0) (fun _ _ => NR).
  Proof. constructor; try reflexivity; cbn; try discriminate. contradiction. Qed.

  Lemma rel_commit c t s ns : Rel t s ns -> Rel (qcommit c t) s ns.
  Proof.
    intros Q. unfold qcommit. destruct (qbuf t c) as [|[x v] l] eqn:E; [exact Q|]. destruct Q. constructor; cbn [qs qbuf pc pm plev pp plog]; try assumption.
    - intros c' y w H. unfold zupd in H. destruct (Z.eqb_spec c' c) as [->|]; [|exact (R_in0 _ _ _ H)]. apply (R_in0 c y w). rewrite E. now right.
    - intros c' y w H. unfold zupd in H. destruct (Z.eqb_spec c' c) as [->|]; [|exact (R_new0 _ _ _ H)]. apply (R_new0 c y w). rewrite E. cbn [newest]. now rewrite H.
    - intros y H. destruct (Z.eqb_spec y x) as [->|Hne].
      + rewrite zupd_eq. apply (R_new0 c x v). rewrite E. cbn [newest]. specialize (H c). rewrite zupd_eq in H. rewrite H. now rewrite Z.eqb_refl.
      + rewrite zupd_neq by exact Hne. apply R_old0. intros c'. pose proof (H c') as H'. unfold zupd in H'. destruct (Z.eqb_spec c' c) as [Ec|Ec]; [rewrite Ec in *|exact H'].
        rewrite E. cbn [newest]. rewrite H'. destruct (Z.eqb_spec y x); [contradiction|reflexivity].
  Qed.

  Definition accesses (p : tprog T) : Prop := match p with TRd _ _ | TWr _ _ _ => True | _ => False end.
  Lemma step_other c s c' : c' <> c -> cpcs (pc (Step c s)) c' = cpcs (pc s) c'.
  Proof.
    intros Hne. unfold pstep.
    destruct (cpcs (pc s) c) eqn:Ec; [| |destruct (pp s c) as [x k|x v k|l i yes no| |]; try reflexivity|..];
      try (destruct (IsBuddyBitSet i (plev s l)) as [mask []]; reflexivity);
      (destruct (cpcs (cstep IndexMode c (pc s)) c); cbn [pc]; now apply cstep_other).
  Qed.
  (** a step that neither loads nor stores makes the same change in both machines *)
  Lemma quiet_step c (a s : pstate T) : pc a = pc s -> plev a = plev s -> pp a = pp s -> plog a = plog s ->
    (in_callback s c -> ~ accesses (pp s c)) ->
    pc (Step c a) = pc (Step c s) /\ plev (Step c a) = plev (Step c s) /\ pp (Step c a) = pp (Step c s) /\ plog (Step c a) = plog (Step c s) /\
    pm (Step c a) = pm a /\ pm (Step c s) = pm s.
  Proof.
    intros E1 E2 E3 E4 Hq. unfold pstep. rewrite E1, E3.
    destruct (cpcs (pc s) c) eqn:Ec; [| |destruct (pp s c) as [x k|x v k|l i yes no| |] eqn:Ep|..];
      try (destruct (cpcs (cstep IndexMode c (pc s)) c); cbn; rewrite ?E2, ?E3, ?E4; now repeat split).
    - exfalso. apply Hq; [unfold in_callback; eauto|exact Logic.I].
    - exfalso. apply Hq; [unfold in_callback; eauto|exact Logic.I].
    - rewrite E2. destruct (IsBuddyBitSet i (plev s l)) as [mask []]; cbn; rewrite ?E1, ?E2, ?E3, ?E4; now repeat split.
  Qed.

  Lemma rel_quiet c t s ns ns' : Rel t s ns -> moved s c ns ns' -> (in_callback s c -> ~ accesses (pp s c)) ->
    (qbuf t c = [] \/ (~ is_buddy (pp s c) /\ holding (cpcs (pc (Step c s)) c))) ->
    Rel (mkQ (Step c (qs t)) (qbuf t)) (Step c s) ns'.
  Proof.
    intros Q (M1 & M2 & M3) Hq Hb. destruct Q. destruct (quiet_step c (qs t) s R_pc0 R_lev0 R_pp0 R_log0 Hq) as (A1 & A2 & A3 & A4 & A5 & A6).
    constructor; cbn [qs qbuf]; try assumption.
    - intros c' x v H. destruct (R_in0 c' x v H) as (B & l & i & Hn & Hx & Hs). destruct (Z.eq_dec c' c) as [->|Hne].
      + destruct Hb as [Hb|[Hb1 Hb2]]; [rewrite Hb in H; destruct H|]. split; [exact Hb2|]. exists l, i. split; [exact Hn|]. split; [exact Hx|].
        destruct Hs as [Hs|[-> Hs]]; [|right; split; [reflexivity|now apply M2]].
        destruct (M3 l i Hn Hs) as [G|(G & [->|G'])]; [now left|right; auto|contradiction].
      + rewrite step_other by exact Hne. split; [exact B|]. exists l, i. split; [exact Hn|]. split; [exact Hx|].
        destruct Hs as [Hs|[-> Hs]]; [left; now apply M1|right; split; [reflexivity|now apply M2]].
    - intros c' x v H. rewrite A6. exact (R_new0 _ _ _ H).
    - intros x H. rewrite A6, A5. now apply R_old0.
  Qed.

  Lemma rel_thread c t s ns done fin : PInv s ns done fin -> Rel t s ns ->
    (qbuf t c <> [] /\ qthread leaf merge K c t = t) \/
    exists ns' done' fin', PInv (Step c s) ns' done' fin' /\ Rel (qthread leaf merge K c t) (Step c s) ns'.
  Proof.
    intros I Q. destruct (pstep_inv c s ns done fin I) as (ns' & done' & fin' & I' & M).
    unfold qthread. rewrite (R_pc _ _ _ Q), (R_pp _ _ _ Q).
    assert (Emp : ~ holding (cpcs (pc s) c) -> qbuf t c = []).
    { intros H. destruct (qbuf t c) as [|[x v] l] eqn:E; [reflexivity|]. exfalso. apply H. apply (R_in _ _ _ Q c x v). rewrite E. now left. }
    assert (Hlock : (in_callback s c -> ~ accesses (pp s c)) ->
      (qbuf t c <> [] /\ match qbuf t c with [] => mkQ (Step c (qs t)) (qbuf t) | _ => t end = t) \/
      exists ns' done' fin', PInv (Step c s) ns' done' fin' /\ Rel (match qbuf t c with [] => mkQ (Step c (qs t)) (qbuf t) | _ => t end) (Step c s) ns').
    { intros Hq. destruct (qbuf t c) eqn:B; [|left; split; [discriminate|reflexivity]]. right. exists ns', done', fin'. split; [exact I'|].
      apply (rel_quiet c t s ns ns'); auto. }
    destruct (cpcs (pc s) c) as [| |st len w|w| |] eqn:Ec.
    - right. exists ns', done', fin'. split; [exact I'|]. apply (rel_quiet c t s ns ns'); auto. intros (a & b & d & H). congruence.
    - apply Hlock. intros (a & b & d & H). congruence.
    - destruct (pp s c) as [x k|x v k|l i yes no| |] eqn:Ep.
      + (* load *) right. exists ns. assert (Hc : in_callback s c) by (unfold in_callback; eauto).
        destruct (next_ok s ns done fin c x I Hc) as (l & i & Hn & Hr & Hx); [rewrite Ep; reflexivity|].
        assert (V : match newest (qbuf t c) x with Some v => v | None => pm (qs t) x end = pm s x).
        { destruct (newest (qbuf t c) x) as [v|] eqn:Nw; [symmetry; exact (R_new _ _ _ Q _ _ _ Nw)|]. symmetry. apply (R_old _ _ _ Q). intros c'.
          destruct (Z.eq_dec c' c) as [->|Hne]; [exact Nw|]. exact (other_buffer t s ns done fin c c' l i x I Q Hn Hr Hx Hne). }
        rewrite V. destruct (P_run _ _ _ _ I l i c Hn Hr) as (_ & p & Hp & Hwp). rewrite Ep in Hp.
        destruct p as [a|x' f|x' v' f| |]; cbn [lift] in Hp; try discriminate.
        { destruct (climb_shape (K - l) l i) as [[_ E]|(d' & _ & E)]; rewrite E in Hp; discriminate. }
        injection Hp as <- ->. exists done, fin. unfold wp in Hwp. cbn in Hwp. rewrite Hx in Hwp.
        split.
        * unfold pstep. rewrite Ec, Ep. apply (mem_step s ns done fin c l i (f (pm s x))); auto.
        * unfold pstep. rewrite Ec, Ep. destruct Q. constructor; cbn [qs qbuf with_pp pc pm plev pp plog]; try assumption. now rewrite R_pp0.
      + (* store *) right. exists ns. assert (Hc : in_callback s c) by (unfold in_callback; eauto).
        destruct (next_ok s ns done fin c x I Hc) as (l & i & Hn & Hr & Hx); [rewrite Ep; reflexivity|].
        pose proof (fun c' H => other_buffer t s ns done fin c c' l i x I Q Hn Hr Hx H) as Oth.
        destruct (P_run _ _ _ _ I l i c Hn Hr) as (_ & p & Hp & Hwp). rewrite Ep in Hp.
        destruct p as [a|x' f|x' v' f| |]; cbn [lift] in Hp; try discriminate.
        { destruct (climb_shape (K - l) l i) as [[_ E]|(d' & _ & E)]; rewrite E in Hp; discriminate. }
        injection Hp as <- <- ->. exists done, fin. unfold wp in Hwp. cbn in Hwp. rewrite Hx in Hwp.
        split.
        * unfold pstep. rewrite Ec, Ep. apply (mem_step s ns done fin c l i f); auto.
          intros y Hy. apply zupd_neq. intros ->. congruence.
        * unfold pstep. rewrite Ec, Ep. destruct Q. constructor; cbn [qs qbuf with_pp pc pm plev pp plog]; try assumption.
          -- now rewrite R_pp0.
          -- intros c' y z H. unfold zupd in H. destruct (Z.eqb_spec c' c) as [->|]; [|exact (R_in0 _ _ _ H)]. apply in_app_iff in H. destruct H as [H|[[= <- <-]|[]]]; [exact (R_in0 _ _ _ H)|].
             split; [rewrite Ec; exact Logic.I|]. exists l, i. auto.
          -- intros c' y z H. unfold zupd in H at 1. destruct (Z.eqb_spec c' c) as [->|Hne].
             ++ rewrite newest_snoc in H. unfold zupd. destruct (y =? x); [congruence|exact (R_new0 _ _ _ H)].
             ++ unfold zupd. destruct (Z.eqb_spec y x) as [->|]; [rewrite (Oth c' Hne) in H; discriminate|exact (R_new0 _ _ _ H)].
          -- intros y H. pose proof (H c) as Hc'. rewrite zupd_eq, newest_snoc in Hc'. unfold zupd at 1. destruct (y =? x) eqn:Ey; [discriminate|]. apply R_old0.
             intros c'. pose proof (H c') as H'. unfold zupd in H'. destruct (Z.eqb_spec c' c) as [Ec'|Ec']; [rewrite Ec'; exact Hc'|exact H'].
      + apply Hlock. intros _ [].
      + (* TDone *) right. exists ns', done', fin'. split; [exact I'|]. apply (rel_quiet c t s ns ns'); auto.
        * intros _. rewrite Ep. cbn. auto.
        * right. rewrite Ep. split; [cbn; auto|]. unfold pstep. rewrite Ec, Ep.
          assert (E : cpcs (cstep IndexMode c (pc s)) c = CFinish w) by (unfold cstep; rewrite Ec; cbn; apply zupd_eq). rewrite E. cbn [pc]. rewrite E. exact Logic.I.
      + right. exists ns', done', fin'. split; [exact I'|]. apply (rel_quiet c t s ns ns'); auto.
        * intros _. rewrite Ep. cbn. auto.
        * right. rewrite Ep. split; [cbn; auto|]. unfold pstep. rewrite Ec, Ep, Ec. exact Logic.I.
    - apply Hlock. intros (a & b & d & H). congruence.
    - right. exists ns', done', fin'. split; [exact I'|]. apply (rel_quiet c t s ns ns'); auto. intros (a & b & d & H). congruence.
    - right. exists ns', done', fin'. split; [exact I'|]. apply (rel_quiet c t s ns ns'); auto. intros (a & b & d & H). congruence.
  Qed.

  Notation Q0 := (mkQ (pstart NL W zz m0) (fun _ => [])).
  Definition Sim (t : qstate T) (s : pstate T) : Prop := exists ns done fin, PInv s ns done fin /\ Rel t s ns.
  Lemma sim_event e t s : Sim t s -> exists s', Sim (qevent leaf merge K e t) s'.
  Proof.
    intros (ns & d & f & I & Q). unfold qevent. destruct (Z.even e); [|exists s, ns, d, f; split; [exact I|now apply rel_commit]].
    destruct (rel_thread (e / 2) t s ns d f I Q) as [[_ E]|(ns' & d' & f' & I' & Q')].
    - rewrite E. exists s, ns, d, f. auto.
    - exists (Step (e / 2) s), ns', d', f'. auto.
  Qed.
  Lemma sim_run sched : exists s, Sim (qrun leaf merge K Q0 sched) s.
  Proof.
    unfold qrun. assert (G : exists s, Sim Q0 s) by (exists (pstart NL W zz m0), (fun _ _ => NR), [], []; split; [exact pinv_start|exact rel_start]).
    revert G. generalize Q0. induction sched as [|e l IH]; intros t G; [exact G|]. cbn [fold_left]. apply IH. destruct G as (s & G). exact (sim_event e t s G).
  Qed.

  Notation reached' sched := (prun leaf merge K (pstart NL W zz m0) sched).

  Theorem tree_result sched c : cpcs (pc (reached' sched)) c = CReturned ->
    (forall i, 0 <= i < N -> Post K i (pm (reached' sched))) /\
    (forall x, (forall l i, node K l i -> ok l i x = false) -> pm (reached' sched) x = m0 x) /\
    NoDup (plog (reached' sched)) /\
    (forall l i, In (l, i) (plog (reached' sched)) <-> node K l i /\ (0 < l)%nat).
  Proof.
    unfold prun. intros Hret. destruct (sim_run sched) as (s & ns & done & fin & I & Q). set (t := qrun leaf merge K Q0 sched) in *.
    rewrite (R_pc _ _ _ Q) in Hret. rewrite (R_log _ _ _ Q).
    pose proof (returned_all_fin _ _ _ _ c I Hret) as Hall. pose proof (P_eng _ _ _ _ I) as HE.
    assert (Emp : forall c' x, newest (qbuf t c') x = None).
    { intros c' x. destruct (newest _ x) as [v|] eqn:E; [|reflexivity]. exfalso. destruct (R_in _ _ _ Q _ _ _ (newest_In _ _ _ E)) as (B & _).
      assert (exists w, cholds (cpcs (pc s) c') w) as (w & Hw) by (destruct (cpcs (pc s) c') as [| |st len w|w| |]; cbn in B |- *; try contradiction; now exists w).
      destruct (CI_held _ _ _ _ _ _ HE c' w Hw) as [Hv Hd]. apply (CI_done_held _ _ _ _ _ _ HE c' w Hw).
      assert (0 <= NL) by (pose proof (pow2_pos K); nia).
      eapply (returned_done IndexMode NL W); eassumption. }
    assert (M : forall x, pm (qs t) x = pm s x) by (intros x; symmetry; apply (R_old _ _ _ Q); intros c'; apply Emp).
    assert (HnK : forall i, 0 <= i < N -> node K K i) by (intros i Hi; split; [lia|]; rewrite Nat.sub_diag; cbn; lia).
    split; [|split; [|split]].
    - intros i Hi. apply (Hpost K i (pm s)); [auto|intros; apply M|]. apply (P_fin _ _ _ _ I); auto.
    - intros x Hx. rewrite M. now apply (P_out _ _ _ _ I).
    - exact (P_log_nd _ _ _ _ I).
    - intros l i. rewrite (P_log _ _ _ _ I). split; [tauto|]. intros [H1 H2]. split; [exact H1|]. split; [exact H2|].
      rewrite Hall by assumption. discriminate.
  Qed.

  Theorem tree_safe sched c c' : let s := reached' sched in
    in_callback s c -> pp s c <> TBad /\
    (c' <> c -> in_callback s c' -> forall x, next_addr (pp s c) = Some x -> next_addr (pp s c') <> Some x).
  Proof.
    unfold prun. destruct (sim_run sched) as (s & ns & done & fin & I & Q). set (t := qrun leaf merge K Q0 sched) in *. cbn zeta.
    unfold in_callback. rewrite (R_pc _ _ _ Q), (R_pp _ _ _ Q). exact (safe_at s ns done fin c c' I).
  Qed.

  Theorem tree_merge_after_halves sched e l i : let s := reached' sched in
    plog (reached' (sched ++ [e])) = plog s ++ [(S l, i)] -> Post l (2 * i) (pm s) /\ Post l (2 * i + 1) (pm s).
  Proof.
    unfold prun. destruct (sim_run sched) as (s & ns & done & fin & I & Q). set (t := qrun leaf merge K Q0 sched) in *. cbn zeta.
    replace (qrun leaf merge K Q0 (sched ++ [e])) with (qevent leaf merge K e t) by (unfold t, qrun; rewrite fold_left_app; reflexivity).
    intros Hlog.
    assert (Hno : plog (qs t) <> plog (qs t) ++ [(S l, i)]) by (intros E; rewrite <- (app_nil_r (plog (qs t))) in E at 1; apply app_inv_head in E; discriminate).
    unfold qevent in Hlog. destruct (Z.even e); [|unfold qcommit in Hlog; destruct (qbuf t (e / 2)) as [|[x v] q]; now elim Hno].
    set (c := e / 2) in *.
    assert (G : qbuf t c = [] /\ exists i0 yes no, in_callback s c /\ pp s c = TBuddy l i0 yes no /\ snd (IsBuddyBitSet i0 (plev s l)) = true /\ i0 / 2 = i).
    { unfold qthread in Hlog. rewrite (R_pc _ _ _ Q), (R_pp _ _ _ Q) in Hlog.
      assert (Hen : (in_callback s c -> pp s c = TDone \/ pp s c = TBad) -> plog (Step c (qs t)) = plog (qs t)).
      { intros H. unfold pstep. rewrite (R_pc _ _ _ Q), (R_pp _ _ _ Q).
        destruct (cpcs (pc s) c) eqn:Ec; try (destruct (cpcs (cstep IndexMode c (pc s)) c); reflexivity).
        destruct H as [-> | ->]; [unfold in_callback; eauto|destruct (cpcs (cstep IndexMode c (pc s)) c); reflexivity|reflexivity]. }
      destruct (cpcs (pc s) c) as [| |st len w|w| |] eqn:Ec.
      1,2,4,5,6: exfalso; apply Hno; rewrite <- Hlog; try (destruct (qbuf t c); [|reflexivity]); cbn [qs]; symmetry; apply Hen; intros (a & b & d & H); congruence.
      assert (Hc : in_callback s c) by (unfold in_callback; eauto).
      destruct (pp s c) as [x k|x v k|l0 i0 yes no| |] eqn:Ep.
      1,2: now elim Hno.
      2,3: exfalso; apply Hno; rewrite <- Hlog; cbn [qs]; symmetry; apply Hen; auto.
      destruct (qbuf t c) eqn:B; [|now elim Hno]. split; [reflexivity|]. exists i0, yes, no.
      cbn [qs] in Hlog. unfold pstep in Hlog. rewrite (R_pc _ _ _ Q), (R_pp _ _ _ Q), (R_lev _ _ _ Q), Ec, Ep in Hlog.
      destruct (IsBuddyBitSet i0 (plev s l0)) as [mask []] eqn:Eb; [|now elim Hno].
      cbn in Hlog. apply app_inv_head in Hlog. injection Hlog as -> <-.
      split; [exact Hc|]. split; [reflexivity|]. split; [now rewrite Eb|reflexivity]. }
    destruct G as (Hb0 & i0 & yes & no & Hc & Hp & Hbit & <-).
    destruct (halves_at s ns done fin c l i0 yes no I Hc Hp Hbit) as (Hn & Hr & HlK & HnB & HfB & Hpar & P1 & P2).
    assert (V1 : forall x, ok l i0 x = true -> pm (qs t) x = pm s x).
    { intros x Hx. symmetry. apply (R_old _ _ _ Q). intros c'. destruct (Z.eq_dec c' c) as [->|Hne]; [now rewrite Hb0|].
      exact (other_buffer t s ns done fin c c' l i0 x I Q Hn Hr Hx Hne). }
    assert (V2 : forall x, ok l (buddy i0) x = true -> pm (qs t) x = pm s x).
    { intros x Hx. symmetry. apply (R_old _ _ _ Q). intros c'. apply (finished_buffer t s ns done fin c' l (buddy i0) x); try assumption.
      now rewrite buddy_div. }
    apply (Hpost l i0 _ (pm (qs t)) Hn V1) in P1. apply (Hpost l (buddy i0) _ (pm (qs t)) HnB V2) in P2.
    assert (C1 : 2 * (i0 / 2) = i0 \/ 2 * (i0 / 2) = buddy i0) by (apply buddy_only; rewrite Z.mul_comm, Z.div_mul by lia; reflexivity).
    assert (C2 : 2 * (i0 / 2) + 1 = i0 \/ 2 * (i0 / 2) + 1 = buddy i0).
    { apply buddy_only. replace (2 * (i0 / 2) + 1) with (1 + (i0 / 2) * 2) by lia. rewrite Z.div_add by lia. reflexivity. }
    destruct C1 as [C1|C1], C2 as [C2|C2]; rewrite ?C2, ?C1; auto.
  Qed.

  (** committing a core's stores and letting it step makes the step of the machine without queues *)
  Lemma empties c : forall k t, length (qbuf t c) = k -> qbuf (qrun leaf merge K t (repeat (2 * c + 1) k)) c = [].
  Proof.
    induction k as [|k IH]; intros t H; [destruct (qbuf t c) eqn:E; [exact E|discriminate]|]. cbn [repeat qrun fold_left]. apply IH.
    unfold qevent. replace (Z.even (2 * c + 1)) with false by (rewrite Z.add_comm; symmetry; apply Z.even_add_mul_2). replace ((2 * c + 1) / 2) with c by (rewrite Z.add_comm, Z.mul_comm, Z.div_add by lia; reflexivity).
    unfold qcommit. destruct (qbuf t c) as [|[x v] l]; [discriminate|]. cbn [qbuf]. rewrite zupd_eq. now injection H.
  Qed.
  Lemma rel_commits c k : forall t s ns, Rel t s ns -> Rel (qrun leaf merge K t (repeat (2 * c + 1) k)) s ns.
  Proof.
    induction k as [|k IH]; intros t s ns Q; [exact Q|]. cbn [repeat qrun fold_left]. apply IH. unfold qevent. replace (Z.even (2 * c + 1)) with false by (rewrite Z.add_comm; symmetry; apply Z.even_add_mul_2).
    now apply rel_commit.
  Qed.
  Lemma qrun_app l1 l2 t : qrun leaf merge K t (l1 ++ l2) = qrun leaf merge K (qrun leaf merge K t l1) l2.
  Proof. apply fold_left_app. Qed.
  Lemma follow l : forall t s, Sim t s -> exists more, Sim (qrun leaf merge K t more) (Run_ s l).
  Proof.
    induction l as [|c l IH]; intros t s (ns & d & f & I & Q); [exists [], ns, d, f; auto|].
    set (r := repeat (2 * c + 1) (length (qbuf t c))). assert (Q1 : Rel (qrun leaf merge K t r) s ns) by now apply rel_commits. assert (B : qbuf (qrun leaf merge K t r) c = []) by now apply empties.
    destruct (rel_thread c _ s ns d f I Q1) as [[X _]|(ns' & d' & f' & I' & Q2)]; [contradiction|].
    destruct (IH _ (Step c s) (ex_intro _ ns' (ex_intro _ d' (ex_intro _ f' (conj I' Q2))))) as (more & Q3).
    exists (r ++ (2 * c) :: more). rewrite qrun_app.
    assert (Ev : qevent leaf merge K (2 * c) (qrun leaf merge K t r) = qthread leaf merge K c (qrun leaf merge K t r)).
    { unfold qevent. rewrite Z.even_mul. cbn [Z.even orb]. replace (2 * c / 2) with c by (rewrite Z.mul_comm, Z.div_mul by lia; reflexivity). reflexivity. }
    change (qrun leaf merge K (qrun leaf merge K t r) (2 * c :: more)) with (qrun leaf merge K (qevent leaf merge K (2 * c) (qrun leaf merge K t r)) more). rewrite Ev. exact Q3.
  Qed.
  Theorem tree_can_return : 1 <= W -> forall sched, exists sched', cpcs (pc (reached' (sched ++ sched'))) 0 = CReturned.
  Proof.
    intros HW1 sched. destruct (sim_run sched) as (s & G). pose proof G as (ns & d & f & I & Q).
    destruct (sched_return HW1 s (ex_intro _ ns (ex_intro _ d (ex_intro _ f I)))) as (l & Hl).
    destruct (follow l _ s G) as (more & ns' & d' & f' & I' & Q'). exists more. unfold prun. rewrite qrun_app, (R_pc _ _ _ Q'). exact Hl.
  Qed.
End Tree.
