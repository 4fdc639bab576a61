(** Sort_Base_Proofs.v - rules for running programs, and facts about memory segments. *)
From Verif Require Import Base Sort_Model.

(** * Rules for exec *)
Definition wp {T A} (ok : Z -> bool) (p : prog T A) (Q : A -> (Z -> T) -> Prop) (m : Z -> T) : Prop :=
  match exec ok p m with Finished a m' => Q a m' | _ => False end.

Section WP.
  Context {T : Type}.
  Variable ok : Z -> bool.

  Lemma wp_ret {A} (a : A) (Q : A -> (Z -> T) -> Prop) m : Q a m -> wp ok (Ret a) Q m.
  Proof. intros H. exact H. Qed.

  Lemma wp_bind {A B} (p : prog T A) (f : A -> prog T B) Q m :
    wp ok p (fun a m' => wp ok (f a) Q m') m -> wp ok (bind p f) Q m.
  Proof.
    revert m; induction p as [a|x k IH|x v k IH| |]; intros m; unfold wp; cbn; try tauto.
    - destruct (ok x); [apply IH|tauto].
    - destruct (ok x); [apply IH|tauto].
  Qed.

  Lemma wp_conseq {A} (p : prog T A) (Q R : A -> (Z -> T) -> Prop) m :
    wp ok p Q m -> (forall a m', Q a m' -> R a m') -> wp ok p R m.
  Proof. unfold wp. destruct (exec ok p m); auto. Qed.

  Lemma wp_rd {A} x (f : T -> prog T A) Q m : ok x = true -> wp ok (f (m x)) Q m -> wp ok (bind (load x) f) Q m.
  Proof. intros H1 H2. unfold wp in *. cbn. rewrite H1. exact H2. Qed.

  Lemma wp_st {A} x v (f : unit -> prog T A) Q m :
    ok x = true -> wp ok (f tt) Q (zupd m x v) -> wp ok (bind (store x v) f) Q m.
  Proof. intros H1 H2. unfold wp in *. cbn. rewrite H1. exact H2. Qed.

  Lemma wp_store x v (Q : unit -> (Z -> T) -> Prop) m :
    ok x = true -> Q tt (zupd m x v) -> wp ok (store x v) Q m.
  Proof. intros H1 H2. unfold wp in *. cbn. rewrite H1. exact H2. Qed.

  Lemma wp_ask {A B} (o : option A) a (f : A -> prog T B) Q m :
    o = Some a -> wp ok (f a) Q m -> wp ok (bind (ask o) f) Q m.
  Proof. intros -> H. exact H. Qed.

  Lemma wp_loop {S R} (step : S -> prog T (S + R)) (Inv : S -> (Z -> T) -> Prop) (meas : S -> Z) Q :
    (forall s m, Inv s m -> wp ok (step s) (fun r m' =>
        match r with inl s' => Inv s' m' /\ meas s' < meas s | inr v => Q v m' end) m) ->
    (forall s m, Inv s m -> 0 <= meas s) ->
    forall F s m, Inv s m -> meas s < Z.of_nat F -> wp ok (loop F step s) Q m.
  Proof.
    intros Hstep Hpos. induction F as [|F IH]; intros s m HI Hm.
    - pose proof (Hpos _ _ HI). lia.
    - cbn [loop]. apply wp_bind. eapply wp_conseq; [apply Hstep, HI|].
      intros [s'|v] m' H.
      + destruct H as [H1 H2]. apply IH; [exact H1|lia].
      + exact H.
  Qed.

  Lemma wp_loop_b {S R B} (step : S -> prog T (S + R)) (f : R -> prog T B)
     (Inv : S -> (Z -> T) -> Prop) (meas : S -> Z) (P : R -> (Z -> T) -> Prop) Q F s m :
    (forall s m, Inv s m -> wp ok (step s) (fun r m' =>
        match r with inl s' => Inv s' m' /\ meas s' < meas s | inr v => P v m' end) m) ->
    (forall s m, Inv s m -> 0 <= meas s) ->
    Inv s m -> meas s < Z.of_nat F ->
    (forall r m', P r m' -> wp ok (f r) Q m') ->
    wp ok (bind (loop F step s) f) Q m.
  Proof.
    intros H1 H2 H3 H4 H5. apply wp_bind. eapply wp_conseq.
    - eapply wp_loop; eauto.
    - auto.
  Qed.

  Lemma wp_exec {A} (p : prog T A) Q m : wp ok p Q m -> exists a m', exec ok p m = Finished a m' /\ Q a m'.
  Proof. unfold wp. destruct (exec ok p m) as [a m'| |]; intros H; [eauto|contradiction|contradiction]. Qed.
End WP.

(** widening the allowed addresses *)
Lemma wp_weaken {T A} (ok ok' : Z -> bool) (p : prog T A) Q m :
  (forall x, ok x = true -> ok' x = true) -> wp ok p Q m -> wp ok' p Q m.
Proof.
  intros Hsub. revert m. induction p as [a|x k IH|x v k IH| |]; intros m; unfold wp; cbn; auto.
  - destruct (ok x) eqn:E; [|tauto]. rewrite (Hsub _ E). apply IH.
  - destruct (ok x) eqn:E; [|tauto]. rewrite (Hsub _ E). apply IH.
Qed.

(** * Segments *)
Section Seg.
  Context {T : Type}.
  Definition seg (m : Z -> T) (lo hi : Z) : list T := map m (zrange lo hi).

  Lemma seg_In m lo hi v : In v (seg m lo hi) <-> exists i, lo <= i < hi /\ m i = v.
  Proof.
    unfold seg. rewrite in_map_iff. split.
    - intros (i & H & Hi). apply zrange_In in Hi. eauto.
    - intros (i & Hi & H). exists i. split; [exact H|apply zrange_In; exact Hi].
  Qed.

  Lemma seg_ext m m' lo hi : (forall i, lo <= i < hi -> m i = m' i) -> seg m lo hi = seg m' lo hi.
  Proof. intros H. unfold seg. apply map_ext_in. intros i Hi. apply H. now apply zrange_In. Qed.

  Lemma seg_split m a b c : a <= b <= c -> seg m a c = seg m a b ++ seg m b c.
  Proof. intros H. unfold seg. rewrite (zrange_split a b c) by lia. apply map_app. Qed.

  Lemma seg_nil m a b : b <= a -> seg m a b = [].
  Proof. intros H. unfold seg. now rewrite zrange_nil by lia. Qed.

  Lemma seg_cons m a b : a < b -> seg m a b = m a :: seg m (a + 1) b.
  Proof. intros H. unfold seg. now rewrite zrange_cons by lia. Qed.

  Lemma seg_snoc m a b : a < b -> seg m a b = seg m a (b - 1) ++ [m (b - 1)].
  Proof.
    intros H. rewrite (seg_split m a (b - 1) b) by lia. f_equal.
    rewrite seg_cons by lia. rewrite seg_nil by lia. reflexivity.
  Qed.

  Lemma seg_length m a b : length (seg m a b) = Z.to_nat (b - a).
  Proof. unfold seg. now rewrite map_length, zrange_length. Qed.

  (** swapping two cells *)
  Definition tr (i j x : Z) : Z := if x =? i then j else if x =? j then i else x.
  Definition swapm (m : Z -> T) (i j : Z) : Z -> T := fun x => m (tr i j x).

  Lemma tr_inj i j x y : tr i j x = tr i j y -> x = y.
  Proof. unfold tr. intros H. destruct (Z.eqb_spec x i), (Z.eqb_spec y i), (Z.eqb_spec x j), (Z.eqb_spec y j); lia. Qed.

  Lemma tr_perm i j lo hi : lo <= i < hi -> lo <= j < hi ->
    Permutation (map (tr i j) (zrange lo hi)) (zrange lo hi).
  Proof.
    intros Hi Hj. apply NoDup_Permutation.
    - apply FinFun.Injective_map_NoDup; [intros x y; apply tr_inj|apply zrange_NoDup].
    - apply zrange_NoDup.
    - intros x. rewrite in_map_iff. split.
      + intros (y & Hy & H). apply zrange_In in H. apply zrange_In. subst x. unfold tr.
        destruct (y =? i); [lia|destruct (y =? j); lia].
      + intros H. apply zrange_In in H. exists (tr i j x). split.
        * unfold tr. destruct (Z.eqb_spec x i), (Z.eqb_spec x j).
          { subst. now rewrite Z.eqb_refl. }
          { subst. rewrite Z.eqb_refl. destruct (Z.eqb_spec j i); lia. }
          { subst. rewrite Z.eqb_refl. reflexivity. }
          { destruct (Z.eqb_spec x i), (Z.eqb_spec x j); lia. }
        * apply zrange_In. unfold tr. destruct (x =? i); [lia|destruct (x =? j); lia].
  Qed.

  Lemma seg_swap m i j lo hi : lo <= i < hi -> lo <= j < hi ->
    Permutation (seg (swapm m i j) lo hi) (seg m lo hi).
  Proof.
    intros Hi Hj. unfold seg, swapm. rewrite <- (map_map (tr i j) m). apply Permutation_map. now apply tr_perm.
  Qed.

  Lemma swapm_l m i j : swapm m i j i = m j.
  Proof. unfold swapm, tr. now rewrite Z.eqb_refl. Qed.
  Lemma swapm_r m i j : swapm m i j j = m i.
  Proof. unfold swapm, tr. destruct (Z.eqb_spec j i); [now subst|]. now rewrite Z.eqb_refl. Qed.
  Lemma swapm_o m i j x : x <> i -> x <> j -> swapm m i j x = m x.
  Proof.
    intros H1 H2. unfold swapm, tr. destruct (Z.eqb_spec x i); [lia|]. destruct (Z.eqb_spec x j); [lia|reflexivity].
  Qed.

  (** moving a hole: the hole at i (to be filled with v) moves to j *)
  Lemma hole_move m i j v x : i <> j ->
    zupd (zupd m i (m j)) j v x = swapm (zupd m i v) i j x.
  Proof.
    intros H. unfold swapm, tr, zupd.
    destruct (Z.eqb_spec x j), (Z.eqb_spec x i); subst; try lia.
    - rewrite Z.eqb_refl. reflexivity.
    - destruct (Z.eqb_spec j i); [lia|reflexivity].
    - destruct (Z.eqb_spec x i); [lia|]. reflexivity.
  Qed.

  Lemma seg_perm_all (P : T -> Prop) m m' lo hi :
    Permutation (seg m' lo hi) (seg m lo hi) ->
    (forall i, lo <= i < hi -> P (m i)) -> forall i, lo <= i < hi -> P (m' i).
  Proof.
    intros Hp H i Hi.
    assert (Hin : In (m' i) (seg m lo hi)).
    { eapply Permutation_in; [exact Hp|]. apply seg_In. eauto. }
    apply seg_In in Hin. destruct Hin as (k & Hk & <-). auto.
  Qed.

  (** permuting inside a bigger segment *)
  Lemma seg_perm_widen m m' lo hi lo' hi' :
    lo' <= lo -> lo <= hi -> hi <= hi' ->
    (forall x, ~ (lo <= x < hi) -> m' x = m x) ->
    Permutation (seg m' lo hi) (seg m lo hi) -> Permutation (seg m' lo' hi') (seg m lo' hi').
  Proof.
    intros H1 H2 H3 Hf Hp.
    rewrite (seg_split m lo' lo hi'), (seg_split m' lo' lo hi') by lia.
    rewrite (seg_split m lo hi hi'), (seg_split m' lo hi hi') by lia.
    rewrite (seg_ext m' m lo' lo) by (intros; apply Hf; lia).
    rewrite (seg_ext m' m hi hi') by (intros; apply Hf; lia).
    apply Permutation_app_head. apply Permutation_app_tail. exact Hp.
  Qed.
End Seg.

Lemma inr_true lo hi x : inr_ lo hi x = true <-> lo <= x < hi.
Proof. unfold inr_. lia. Qed.

(** * Orders *)
(** the two laws a sorting comparison must satisfy: asymmetric, and "not less than" is transitive *)
Record strict_weak {T} (lt : T -> T -> bool) : Prop := {
  sw_asym : forall x y, lt x y = true -> lt y x = false;
  sw_ntrans : forall x y z, lt x y = false -> lt y z = false -> lt x z = false
}.

Section Order.
  Context {T : Type}.
  Variable lt : T -> T -> bool.
  Hypothesis SW : strict_weak lt.
  Definition le (x y : T) : Prop := lt y x = false.
  Lemma le_refl x : le x x.
  Proof. unfold le. destruct (lt x x) eqn:E; [|reflexivity]. now rewrite (sw_asym _ SW _ _ E) in E. Qed.
  Lemma le_trans x y z : le x y -> le y z -> le x z.
  Proof. unfold le. intros H1 H2. eapply sw_ntrans; eauto. Qed.
  Lemma lt_le x y : lt x y = true -> le x y.
  Proof. apply (sw_asym _ SW). Qed.
  Lemma le_total x y : le x y \/ le y x.
  Proof. unfold le. destruct (lt y x) eqn:E; [right; now apply (sw_asym _ SW)|now left]. Qed.
End Order.
