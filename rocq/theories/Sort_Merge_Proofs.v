(** Sort_Merge_Proofs.v - the merge sorts are stable sorts and stay inside array and workspace. *)
From Coq Require Import Sorted.
From Verif Require Import Base Sort_Model Sort_Base_Proofs Sort_Insert_Proofs Sort_Merge_Base_Proofs.

(** nothing changed except in [lo,hi) and [lo2,hi2) *)
Definition same_out2 {T} (m0 m : Z -> T) lo hi lo2 hi2 : Prop :=
  forall x, ~ (lo <= x < hi) -> ~ (lo2 <= x < hi2) -> m x = m0 x.

Section InsString.
  Context {T : Type}.
  Variables (F : nat) (LT : T -> T -> option bool) (lt : T -> T -> bool) (P : T -> Prop).
  Hypothesis LT_ok : forall x y, P x -> P y -> LT x y = Some (lt x y).
  Hypothesis SW : strict_weak lt.
  Variable ok : Z -> bool.

  Lemma insertion_string_ok lo hi pw m0 (Q : unit -> (Z -> T) -> Prop) :
    (forall x, lo <= x < hi -> ok x = true) -> (hi - lo <= 1 \/ ok pw = true) ->
    (hi - lo <= 1 \/ pw < lo \/ hi <= pw) ->
    (forall x, lo <= x < hi -> P (m0 x)) ->
    Z.max 0 (hi - lo) < Z.of_nat F ->
    (forall m, srel lt (seg m0 lo hi) (seg m lo hi) -> sorted_seg lt m lo hi ->
       same_out2 m0 m lo hi pw (pw + (hi - lo) / 2) -> Q tt m) ->
    wp ok (insertion_string F LT lo hi pw) Q m0.
  Proof.
    intros Hok Hokw Hdis HP HF HQ. unfold insertion_string.
    set (fr := fun m : Z -> T => forall x, ~ (lo <= x < hi) -> (x <> pw \/ hi - lo <= 1) -> m x = m0 x).
    apply wp_loop with (Inv := fun pi m => lo + 1 <= pi /\ pi <= Z.max hi (lo + 1) /\ sorted_seg lt m lo pi /\
        srel lt (seg m0 lo hi) (seg m lo hi) /\ fr m)
      (meas := fun pi => Z.max hi (lo + 1) - pi).
    - intros pi m (H1 & H2 & Hs & Hr & Hf).
      assert (HPm : forall x, lo <= x < hi -> P (m x)) by (eapply seg_perm_all; [apply Hr|exact HP]).
      destruct (pi <? hi) eqn:Epi.
      2:{ apply wp_ret. apply HQ; [exact Hr|intros i j Hij Hj; apply Hs; lia|].
          intros x Hx Hx2. apply Hf; [exact Hx|].
          destruct (Z.le_gt_cases (hi - lo) 1) as [Hle|Hgt]; [right; exact Hle|left; intros ->; apply Hx2].
          pose proof (Z.div_le_mono 2 (hi - lo) 2 ltac:(lia) ltac:(lia)). change (2/2) with 1 in *. lia. }
      assert (Hw : ok pw = true) by (destruct Hokw; [lia|assumption]).
      assert (Hpw : pw < lo \/ hi <= pw) by lia.
      apply wp_rd; [apply Hok; lia|]. set (vp := m pi).
      apply wp_st; [exact Hw|].
      eapply wp_loop_b with (Inv := fun pj m' => lo <= pj <= pi /\
          srel lt (seg m0 lo hi) (seg (zupd m' pj vp) lo hi) /\
          (forall i j, lo <= i < j -> j <= pi -> i <> pj -> j <> pj -> le lt (m' i) (m' j)) /\
          (forall j, pj < j <= pi -> lt vp (m' j) = true) /\ fr m' /\ m' pw = vp)
        (meas := fun pj => pj - lo)
        (P := fun pj m' => lo <= pj <= pi /\
          srel lt (seg m0 lo hi) (seg (zupd m' pj vp) lo hi) /\
          (forall i j, lo <= i < j -> j <= pi -> i <> pj -> j <> pj -> le lt (m' i) (m' j)) /\
          (forall j, pj < j <= pi -> lt vp (m' j) = true) /\
          (forall j, lo <= j < pj -> le lt (m' j) vp) /\ fr m' /\ m' pw = vp).
      + intros pj m' (G1 & G2 & G3 & G4 & G5 & Gv).
        assert (HPv : forall x, lo <= x < hi -> P (zupd m' pj vp x)) by (eapply seg_perm_all; [apply G2|exact HP]).
        destruct (lo <? pj) eqn:Elo.
        2:{ apply wp_ret. repeat (split; [assumption|]). split; [intros; lia|split; assumption]. }
        apply wp_rd; [exact Hw|]. rewrite Gv.
        apply wp_rd; [apply Hok; lia|].
        assert (HPx : P (m' (pj - 1))).
        { specialize (HPv (pj - 1) ltac:(lia)). now rewrite zupd_neq in HPv by lia. }
        assert (HPvp : P vp) by (specialize (HPv pj ltac:(lia)); now rewrite zupd_eq in HPv).
        eapply wp_ask; [apply LT_ok; assumption|].
        destruct (lt vp (m' (pj - 1))) eqn:E.
        * apply wp_st; [apply Hok; lia|]. apply wp_ret. split; [|lia].
          assert (Hmv : forall x, zupd (zupd m' pj (m' (pj - 1))) (pj - 1) vp x = swapm (zupd m' pj vp) pj (pj - 1) x)
            by (intros x; apply hole_move; lia).
          split; [lia|]. split; [|split; [|split; [|split]]].
          -- rewrite (seg_ext _ _ lo hi (fun i _ => Hmv i)).
             eapply srel_trans; [exact G2|]. apply (srel_adj LT lt P LT_ok SW ok); [lia|].
             rewrite zupd_eq, zupd_neq by lia. exact E.
          -- intros i j Hij Hj Hi' Hj'.
             destruct (Z.eq_dec i pj) as [->|Hni]; [|destruct (Z.eq_dec j pj) as [->|Hnj]].
             ++ rewrite zupd_eq, zupd_neq by lia. apply G3; lia.
             ++ rewrite zupd_eq, zupd_neq by lia. apply G3; lia.
             ++ rewrite !zupd_neq by lia. apply G3; lia.
          -- intros j Hj. destruct (Z.eq_dec j pj) as [->|Hnj]; [now rewrite zupd_eq|].
             rewrite zupd_neq by lia. apply G4. lia.
          -- intros x Hx Hx2. rewrite zupd_neq by lia. now apply G5.
          -- rewrite zupd_neq by lia. exact Gv.
        * apply wp_ret. repeat (split; [assumption|]). split; [|split; assumption].
          intros j Hj. destruct (Z.eq_dec j (pj - 1)) as [->|Hn]; [exact E|].
          eapply le_trans; [exact SW| |exact E]. apply G3; lia.
      + intros pj m' (G1 & _). lia.
      + split; [lia|]. split; [|split; [|split; [|split]]].
        * rewrite (seg_ext (zupd (zupd m pw vp) pi vp) m lo hi); [exact Hr|].
          intros i Hi. unfold zupd. destruct (Z.eqb_spec i pi); [now subst|]. destruct (Z.eqb_spec i pw); [lia|reflexivity].
        * intros i j Hij Hj Hi' Hj'. rewrite !zupd_neq by lia. apply Hs; lia.
        * intros; lia.
        * intros x Hx Hx2. rewrite zupd_neq by lia. now apply Hf.
        * apply zupd_eq.
      + lia.
      + intros pj m' (G1 & G2 & G3 & G4 & G5 & G6 & Gv).
        apply wp_rd; [exact Hw|]. rewrite Gv.
        apply wp_st; [apply Hok; lia|]. apply wp_ret. split; [|lia].
        split; [lia|]. split; [lia|]. split; [|split].
        * intros i j Hij Hj.
          destruct (Z.eq_dec i pj) as [->|Hni]; [|destruct (Z.eq_dec j pj) as [->|Hnj]].
          -- rewrite zupd_eq, zupd_neq by lia. apply (lt_le _ SW). apply G4. lia.
          -- rewrite zupd_eq, zupd_neq by lia. apply G5. lia.
          -- rewrite !zupd_neq by lia. apply G3; lia.
        * exact G2.
        * intros x Hx Hx2. rewrite zupd_neq by lia. now apply G6.
    - intros pi m (H1 & H2 & _). lia.
    - split; [lia|]. split; [lia|]. split; [intros i j Hij Hj; lia|]. split; [apply srel_refl|]. intros x _ _. reflexivity.
    - lia.
  Qed.
End InsString.

Section MergeSorts.
  Context {T : Type}.
  Variables (F : nat) (LT : T -> T -> option bool) (lt : T -> T -> bool) (P : T -> Prop).
  Hypothesis LT_ok : forall x y, P x -> P y -> LT x y = Some (lt x y).
  Hypothesis SW : strict_weak lt.
  Notation le := (le lt).

  Definition mpost (m0 : Z -> T) pl pr pw w m : Prop :=
    srel lt (seg m0 pl pr) (seg m pl pr) /\ sorted_seg lt m pl pr /\ same_out2 m0 m pl pr pw (pw + w).

  Lemma srel_all (m m0 : Z -> T) lo hi : srel lt (seg m0 lo hi) (seg m lo hi) ->
    (forall x, lo <= x < hi -> P (m0 x)) -> forall x, lo <= x < hi -> P (m x).
  Proof. intros [Hp _]. now apply seg_perm_all. Qed.

  Lemma sorted_join m a b c : a <= b <= c -> sorted_seg lt m a b -> sorted_seg lt m b c ->
    (a < b -> b < c -> lt (m b) (m (b - 1)) = false) -> sorted_seg lt m a c.
  Proof.
    intros Hb Ha Hc Hj i j Hij Hjc.
    destruct (Z.lt_ge_cases j b) as [|Hjb]; [apply Ha; lia|].
    destruct (Z.lt_ge_cases i b) as [Hib|]; [|apply Hc; lia].
    specialize (Hj ltac:(lia) ltac:(lia)).
    assert (L1 : le (m i) (m (b - 1))).
    { destruct (Z.eq_dec i (b - 1)) as [->|]; [apply le_refl, SW|apply Ha; lia]. }
    assert (L2 : le (m b) (m j)).
    { destruct (Z.eq_dec j b) as [->|]; [apply le_refl, SW|apply Hc; lia]. }
    eapply le_trans; [exact SW|exact L1|]. eapply le_trans; [exact SW|exact Hj|exact L2].
  Qed.

  Lemma finish A B m0 m pl pr : srel lt (seg m0 pl pr) (A ++ B) -> StronglySorted le A -> StronglySorted le B ->
    mrg lt A B (seg m pl pr) -> srel lt (seg m0 pl pr) (seg m pl pr) /\ sorted_seg lt m pl pr.
  Proof.
    intros H1 HA HB HM. split.
    - eapply srel_trans; [exact H1|]. now apply mrg_srel.
    - apply sorted_seg_iff. eapply mrg_sorted; eauto.
  Qed.

  (** ** the string merge sorts and the pairwise merge *)
  Section WithOk.
  Variable ok : Z -> bool.

  Lemma ask_lf l r : P l -> P r -> forall (Q' : bool -> (Z -> T) -> Prop) m', Q' (negb (lt r l)) m' ->
     wp ok (let! b := lt_ LT r l in Ret (negb b)) Q' m'.
  Proof. intros H1 H2 Q' m' HQ. eapply wp_ask; [apply LT_ok; assumption|]. now apply wp_ret. Qed.

  (** merge the sorted halves [pl,pm) and [pm,pr) through the workspace *)
  Lemma merge_halves_ok pl pm pr pw m (Q : unit -> (Z -> T) -> Prop) :
    pl < pm -> pm < pr -> pr - pl < Z.of_nat F ->
    (pw + (pm - pl) <= pl \/ pr <= pw) ->
    (forall x, pl <= x < pr -> ok x = true) -> (forall x, pw <= x < pw + (pm - pl) -> ok x = true) ->
    (forall x, pl <= x < pr -> P (m x)) ->
    sorted_seg lt m pl pm -> sorted_seg lt m pm pr ->
    (forall m', mpost m pl pr pw (pm - pl) m' -> Q tt m') ->
    wp ok (let! x := load pm in let! y := load (pm - 1) in
        let! b := lt_ LT x y in
        if b : bool then
          memcpy F pw pl (pm - pl) ;;
          let pi := pw + (pm - pl) in
          let! (p, _, d) := merge_loop F (fun l r => let! b := lt_ LT r l in Ret (negb b)) pw pi pm pr pl in
          let! _ := copy_rest F p pi d in Ret tt
        else Ret tt) Q m.
  Proof.
    intros H1 H2 HF Hdis Hok1 Hok2 HP S1 S2 HQ.
    apply wp_rd; [apply Hok1; lia|]. apply wp_rd; [apply Hok1; lia|].
    eapply wp_ask; [apply LT_ok; apply HP; lia|].
    destruct (lt (m pm) (m (pm - 1))) eqn:E.
    2:{ apply wp_ret. apply HQ. split; [apply srel_refl|]. split; [apply (sorted_join m pl pm pr); auto; lia|intros x _ _; reflexivity]. }
    apply memcpy_ok; try lia.
    { intros k Hk. split; [apply Hok1; lia|apply Hok2; lia]. }
    intros m1 Hc Hf.
    assert (HA : seg m1 pw (pw + (pm - pl)) = seg m pl pm).
    { apply (seg_shift m1 m pl pm pw). intros x Hx. rewrite Hc by lia. f_equal. lia. }
    assert (HB : seg m1 pm pr = seg m pm pr) by (apply seg_ext; intros; apply Hf; lia).
    cbv zeta. eapply merge_back_ok with (lt := lt); try lia.
    - rewrite HA, HB. intros l r Hl Hr. apply seg_In in Hl, Hr.
      destruct Hl as (i & Hi & <-), Hr as (j & Hj & <-). apply ask_lf; apply HP; lia.
    - exact Hok2.
    - exact Hok1.
    - intros m' HM Ho. rewrite HA, HB in HM. apply HQ.
      destruct (finish (seg m pl pm) (seg m pm pr) m m' pl pr) as [K1 K2]; try assumption.
      + rewrite <- seg_split by lia. apply srel_refl.
      + apply sorted_seg_iff; assumption.
      + apply sorted_seg_iff; assumption.
      + split; [exact K1|]. split; [exact K2|]. intros x Hx1 Hx2. rewrite Ho by assumption. apply Hf. exact Hx2.
  Qed.

  Lemma mergesort0string_ok direct : forall f pl pr pw m (Q : unit -> (Z -> T) -> Prop),
    pl <= pr -> pr - pl < Z.of_nat f -> pr - pl < Z.of_nat F ->
    (pw + (pr - pl) / 2 <= pl \/ pr <= pw) ->
    (forall x, pl <= x < pr -> ok x = true) -> (forall x, pw <= x < pw + (pr - pl) / 2 -> ok x = true) ->
    (forall x, pl <= x < pr -> P (m x)) ->
    (forall m', mpost m pl pr pw ((pr - pl) / 2) m' -> Q tt m') ->
    wp ok (mergesort0string_ F LT direct f pl pr pw) Q m.
  Proof.
    induction f as [|f IH]; intros pl pr pw m Q Hle Hf HF Hdis Hok1 Hok2 HP HQ; [lia|].
    cbn [mergesort0string_]. destruct (SMALL_MERGESORT <? pr - pl) eqn:E; unfold SMALL_MERGESORT in E.
    - set (w := (pr - pl) / 2) in *. set (pm := pl + w).
      assert (Hw : 2 * w <= pr - pl /\ pr - pl <= 2 * w + 1) by (unfold w; pose proof (Z.div_mod (pr - pl) 2 ltac:(lia)); pose proof (Z.mod_pos_bound (pr - pl) 2 ltac:(lia)); lia).
      assert (Q1 : (pm - pl) / 2 <= w /\ 0 <= (pm - pl) / 2).
      { split; [|apply Z.div_pos; lia]. apply Z.div_le_upper_bound; lia. }
      assert (Q2 : (pr - pm) / 2 <= w /\ 0 <= (pr - pm) / 2).
      { split; [|apply Z.div_pos; lia]. apply Z.div_le_upper_bound; lia. }
      apply wp_bind. apply IH; try lia.
      { intros x Hx. apply Hok1. lia. }
      { intros x Hx. apply Hok2. lia. }
      { intros x Hx. apply HP. lia. }
      intros m1 (A1 & A2 & A3).
      assert (HP1 : forall x, pl <= x < pr -> P (m1 x)).
      { intros x Hx. destruct (Z.lt_ge_cases x pm).
        - eapply srel_all; [exact A1| |split; [|eassumption]; lia]. intros y Hy. apply HP. lia.
        - rewrite A3 by lia. apply HP. lia. }
      apply wp_bind. apply IH; try lia.
      { intros x Hx. apply Hok1. lia. }
      { intros x Hx. apply Hok2. lia. }
      { intros x Hx. apply HP1. lia. }
      intros m2 (B1 & B2 & B3).
      assert (HP2 : forall x, pl <= x < pr -> P (m2 x)).
      { intros x Hx. destruct (Z.lt_ge_cases x pm).
        - rewrite B3 by lia. apply HP1. lia.
        - eapply srel_all; [exact B1| |split; [eassumption|]; lia]. intros y Hy. apply HP1. lia. }
      assert (E2 : seg m2 pl pm = seg m1 pl pm) by (apply seg_ext; intros; apply B3; lia).
      assert (E1 : seg m1 pm pr = seg m pm pr) by (apply seg_ext; intros; apply A3; lia).
      apply merge_halves_ok; try lia; try assumption.
      { intros x Hx. apply Hok2. lia. }
      { intros i j Hi Hj. rewrite !B3 by lia. apply A2; lia. }
      intros m3 (C1 & C2 & C3). apply HQ. split; [|split; [exact C2|]].
      + eapply srel_trans; [|exact C1]. rewrite (seg_split m pl pm pr), (seg_split m2 pl pm pr) by lia.
        apply srel_app; [rewrite E2; exact A1|rewrite <- E1; exact B1].
      + intros x Hx1 Hx2. rewrite C3, B3, A3 by lia. reflexivity.
    - destruct direct.
      + apply (insertion_string_ok F LT lt P LT_ok SW); try assumption; try lia.
        * destruct (Z.le_gt_cases (pr - pl) 1); [left; lia|right]. apply Hok2.
          pose proof (Z.div_le_mono 2 (pr - pl) 2 ltac:(lia) ltac:(lia)). change (2/2) with 1 in *. lia.
        * intros m' H1 H2 H3. apply HQ. split; [exact H1|split; [exact H2|exact H3]].
      + apply (insertion_ok F LT lt P LT_ok SW); try assumption; try lia.
        intros m' (H1 & H2 & H3). apply HQ. split; [exact H1|split; [exact H2|]]. intros x Hx _. now apply H3.
  Qed.

  Lemma par_merge_ok start n pw m (Q : unit -> (Z -> T) -> Prop) :
    2 <= n -> n < Z.of_nat F ->
    (pw + n / 2 <= start \/ start + n <= pw) ->
    (forall x, start <= x < start + n -> ok x = true) -> (forall x, pw <= x < pw + n / 2 -> ok x = true) ->
    (forall x, start <= x < start + n -> P (m x)) ->
    sorted_seg lt m start (start + n / 2) -> sorted_seg lt m (start + n / 2) (start + n) ->
    (forall m', mpost m start (start + n) pw (n / 2) m' -> Q tt m') ->
    wp ok (par_merge F LT start n pw) Q m.
  Proof.
    intros Hn HF Hdis Hok1 Hok2 HP S1 S2 HQ. unfold par_merge.
    assert (Hw : 2 * (n / 2) <= n /\ n <= 2 * (n / 2) + 1) by (pose proof (Z.div_mod n 2 ltac:(lia)); pose proof (Z.mod_pos_bound n 2 ltac:(lia)); lia).
    apply merge_halves_ok; try lia; try assumption.
    - intros x Hx. apply Hok2. lia.
    - intros m'. replace (start + n / 2 - start) with (n / 2) by lia. apply HQ.
  Qed.
  End WithOk.
End MergeSorts.
