(** Sort_Insert_Proofs.v - the insertion sort leaves are stable sorts. *)
From Verif Require Import Base Sort_Model Sort_Base_Proofs.

(** * Stable rearrangement of lists *)
Section Stable.
  Context {T : Type}.
  Variable lt : T -> T -> bool.
  Definition eqv (x y : T) : bool := negb (lt x y) && negb (lt y x).
  Definition srel (l l' : list T) : Prop :=
    Permutation l' l /\ forall x, filter (eqv x) l' = filter (eqv x) l.

  Lemma srel_refl l : srel l l.
  Proof. split; [apply Permutation_refl|reflexivity]. Qed.
  Lemma srel_trans a b c : srel a b -> srel b c -> srel a c.
  Proof.
    intros [H1 H2] [H3 H4]. split; [now apply Permutation_trans with b|].
    intros x. now rewrite H4, H2.
  Qed.
  Lemma srel_app a a' b b' : srel a a' -> srel b b' -> srel (a ++ b) (a' ++ b').
  Proof.
    intros [H1 H2] [H3 H4]. split; [now apply Permutation_app|].
    intros x. now rewrite !filter_app, H2, H4.
  Qed.

  Hypothesis SW : strict_weak lt.
  Lemma eqv_not_both z x y : lt y x = true -> eqv z x = true -> eqv z y = true -> False.
  Proof.
    unfold eqv. intros H H1 H2. apply andb_true_iff in H1, H2. destruct H1 as [A B], H2 as [C D].
    apply negb_true_iff in A, B, C, D.
    pose proof (sw_ntrans _ SW y z x D A). congruence.
  Qed.
  Lemma srel_swap2 x y : lt y x = true -> srel [x; y] [y; x].
  Proof.
    intros H. split; [apply perm_swap|]. intros z. cbn.
    destruct (eqv z x) eqn:E1, (eqv z y) eqn:E2; try reflexivity.
    exfalso. eapply eqv_not_both; eauto.
  Qed.
End Stable.

Definition sorted_seg {T} (lt : T -> T -> bool) (m : Z -> T) (lo hi : Z) : Prop :=
  forall i j, lo <= i < j -> j < hi -> le lt (m i) (m j).

Definition same_out {T} (m0 m : Z -> T) (lo hi : Z) : Prop := forall x, ~ (lo <= x < hi) -> m x = m0 x.

Lemma same_out_trans {T} (a b c : Z -> T) lo hi : same_out a b lo hi -> same_out b c lo hi -> same_out a c lo hi.
Proof. intros H1 H2 x Hx. now rewrite H2, H1. Qed.

Section Insertion.
  Context {T : Type}.
  Variables (F : nat) (LT : T -> T -> option bool) (lt : T -> T -> bool) (P : T -> Prop).
  Hypothesis LT_ok : forall x y, P x -> P y -> LT x y = Some (lt x y).
  Hypothesis SW : strict_weak lt.
  Variable ok : Z -> bool.

  (** adjacent exchange in a segment *)
  Lemma srel_adj m lo hi j : lo < j < hi -> lt (m j) (m (j - 1)) = true ->
    srel lt (seg m lo hi) (seg (swapm m j (j - 1)) lo hi).
  Proof.
    intros Hj Hlt.
    rewrite (seg_split m lo (j - 1) hi), (seg_split (swapm m j (j-1)) lo (j - 1) hi) by lia.
    rewrite (seg_split m (j - 1) (j + 1) hi), (seg_split (swapm m j (j-1)) (j - 1) (j + 1) hi) by lia.
    rewrite (seg_ext (swapm m j (j - 1)) m lo (j - 1)) by (intros; apply swapm_o; lia).
    rewrite (seg_ext (swapm m j (j - 1)) m (j + 1) hi) by (intros; apply swapm_o; lia).
    apply srel_app; [apply srel_refl|]. apply srel_app; [|apply srel_refl].
    assert (E : forall mm : Z -> T, seg mm (j - 1) (j + 1) = [mm (j - 1); mm j]).
    { intros mm. rewrite seg_cons by lia. rewrite seg_cons by lia. rewrite seg_nil by lia.
      replace (j - 1 + 1) with j by lia. reflexivity. }
    rewrite !E. rewrite swapm_r, swapm_l. now apply srel_swap2.
  Qed.

  Definition ins_post (m0 : Z -> T) lo hi m : Prop :=
    srel lt (seg m0 lo hi) (seg m lo hi) /\ sorted_seg lt m lo hi /\ same_out m0 m lo hi.

  Lemma insertion_ok lo hi m0 (Q : unit -> (Z -> T) -> Prop) :
    (forall x, lo <= x < hi -> ok x = true) -> (forall x, lo <= x < hi -> P (m0 x)) ->
    Z.max 0 (hi - lo) < Z.of_nat F ->
    (forall m, ins_post m0 lo hi m -> Q tt m) ->
    wp ok (insertion F LT lo hi) Q m0.
  Proof.
    intros Hok HP HF HQ. unfold insertion.
    apply wp_loop with (Inv := fun pi m => lo + 1 <= pi /\ pi <= Z.max hi (lo + 1) /\ sorted_seg lt m lo pi /\
        srel lt (seg m0 lo hi) (seg m lo hi) /\ same_out m0 m lo hi)
      (meas := fun pi => Z.max hi (lo + 1) - pi).
    - intros pi m (H1 & H2 & Hs & Hr & Hf).
      assert (HPm : forall x, lo <= x < hi -> P (m x)) by (eapply seg_perm_all; [apply Hr|exact HP]).
      destruct (pi <? hi) eqn:Epi.
      2:{ apply wp_ret. apply HQ. split; [exact Hr|split; [|exact Hf]]. intros i j Hij Hj. apply Hs; lia. }
      apply wp_rd; [apply Hok; lia|]. set (vp := m pi).
      eapply wp_loop_b with (Inv := fun pj m' => lo <= pj <= pi /\
          srel lt (seg m0 lo hi) (seg (zupd m' pj vp) lo hi) /\
          (forall i j, lo <= i < j -> j <= pi -> i <> pj -> j <> pj -> le lt (m' i) (m' j)) /\
          (forall j, pj < j <= pi -> lt vp (m' j) = true) /\ same_out m0 m' lo hi)
        (meas := fun pj => pj - lo)
        (P := fun pj m' => lo <= pj <= pi /\
          srel lt (seg m0 lo hi) (seg (zupd m' pj vp) lo hi) /\
          (forall i j, lo <= i < j -> j <= pi -> i <> pj -> j <> pj -> le lt (m' i) (m' j)) /\
          (forall j, pj < j <= pi -> lt vp (m' j) = true) /\
          (forall j, lo <= j < pj -> le lt (m' j) vp) /\ same_out m0 m' lo hi).
      + intros pj m' (G1 & G2 & G3 & G4 & G5).
        assert (HPv : forall x, lo <= x < hi -> P (zupd m' pj vp x)) by (eapply seg_perm_all; [apply G2|exact HP]).
        destruct (lo <? pj) eqn:Elo.
        2:{ apply wp_ret. repeat (split; [assumption|]). split; [intros; lia|assumption]. }
        apply wp_rd; [apply Hok; lia|].
        assert (HPx : P (m' (pj - 1))).
        { specialize (HPv (pj - 1) ltac:(lia)). now rewrite zupd_neq in HPv by lia. }
        assert (HPvp : P vp) by (specialize (HPv pj ltac:(lia)); now rewrite zupd_eq in HPv).
        eapply wp_ask; [apply LT_ok; assumption|].
        destruct (lt vp (m' (pj - 1))) eqn:E.
        * apply wp_st; [apply Hok; lia|]. apply wp_ret. split; [|lia].
          assert (Hmv : forall x, zupd (zupd m' pj (m' (pj - 1))) (pj - 1) vp x = swapm (zupd m' pj vp) pj (pj - 1) x)
            by (intros x; apply hole_move; lia).
          split; [lia|]. split; [|split; [|split]].
          -- rewrite (seg_ext _ _ lo hi (fun i _ => Hmv i)).
             eapply srel_trans; [exact G2|]. apply srel_adj; [lia|].
             rewrite zupd_eq, zupd_neq by lia. exact E.
          -- intros i j Hij Hj Hi' Hj'.
             destruct (Z.eq_dec i pj) as [->|Hni]; [|destruct (Z.eq_dec j pj) as [->|Hnj]].
             ++ rewrite zupd_eq, zupd_neq by lia. apply G3; lia.
             ++ rewrite zupd_eq, zupd_neq by lia. apply G3; lia.
             ++ rewrite !zupd_neq by lia. apply G3; lia.
          -- intros j Hj. destruct (Z.eq_dec j pj) as [->|Hnj]; [now rewrite zupd_eq|].
             rewrite zupd_neq by lia. apply G4. lia.
          -- intros x Hx. rewrite zupd_neq by lia. now apply G5.
        * apply wp_ret. repeat (split; [assumption|]). split; [|assumption].
          intros j Hj. destruct (Z.eq_dec j (pj - 1)) as [->|Hn]; [exact E|].
          eapply le_trans; [exact SW| |exact E]. apply G3; lia.
      + intros pj m' (G1 & _). lia.
      + split; [lia|]. split; [|split; [|split]].
        * rewrite (seg_ext (zupd m pi vp) m lo hi); [exact Hr|].
          intros i _. unfold zupd. destruct (Z.eqb_spec i pi); [now subst|reflexivity].
        * intros i j Hij Hj Hi' Hj'. apply Hs; lia.
        * intros; lia.
        * exact Hf.
      + lia.
      + intros pj m' (G1 & G2 & G3 & G4 & G5 & G6).
        apply wp_st; [apply Hok; lia|]. apply wp_ret. split; [|lia].
        split; [lia|]. split; [lia|]. split; [|split].
        * intros i j Hij Hj.
          destruct (Z.eq_dec i pj) as [->|Hni]; [|destruct (Z.eq_dec j pj) as [->|Hnj]].
          -- rewrite zupd_eq, zupd_neq by lia. apply (lt_le _ SW). apply G4. lia.
          -- rewrite zupd_eq, zupd_neq by lia. apply G5. lia.
          -- rewrite !zupd_neq by lia. apply G3; lia.
        * exact G2.
        * intros x Hx. rewrite zupd_neq by lia. now apply G6.
    - intros pi m (H1 & H2 & _). lia.
    - split; [lia|]. split; [lia|]. split; [intros i j Hij Hj; lia|]. split; [apply srel_refl|]. intros x _. reflexivity.
    - lia.
  Qed.
End Insertion.
