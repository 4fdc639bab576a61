(** Sort_MergeNum_Proofs.v - mergesort0_/mergesort0left_ (with the NaN tail) and amergesort0_/amergesort0left_. *)
From Coq Require Import Sorted.
From Verif Require Import Base Sort_Model Sort_Base_Proofs Sort_Insert_Proofs Sort_Merge_Base_Proofs Sort_Merge_Proofs.

Section Num.
  Context {T : Type}.
  Variables (F : nat) (LT : T -> T -> option bool) (lt : T -> T -> bool) (P : T -> Prop).
  Hypothesis LT_ok : forall x y, P x -> P y -> LT x y = Some (lt x y).
  Hypothesis SW : strict_weak lt.
  Notation le := (le lt).
  Variable ok : Z -> bool.

  (** result of the "left" variants: sorted in place, or sorted into the workspace *)
  Definition lpost (m0 : Z -> T) pl pr pw (b : bool) m : Prop :=
    same_out2 m0 m pl pr pw (pw + (pr - pl)) /\
    (if b then srel lt (seg m0 pl pr) (seg m pw (pw + (pr - pl))) /\ sorted_seg lt m pw (pw + (pr - pl))
     else srel lt (seg m0 pl pr) (seg m pl pr) /\ sorted_seg lt m pl pr).

  Lemma half pl pr : 15 < pr - pl -> let w := (pr - pl) / 2 in 2 * w <= pr - pl /\ pr - pl <= 2 * w + 1.
  Proof. intros H w. unfold w. pose proof (Z.div_mod (pr - pl) 2 ltac:(lia)). pose proof (Z.mod_pos_bound (pr - pl) 2 ltac:(lia)). lia. Qed.
  Lemma half_le a w : 0 <= a <= 2 * w -> 0 <= a / 2 <= w.
  Proof. intros H. split; [apply Z.div_pos; lia|]. apply Z.div_le_upper_bound; lia. Qed.

  Lemma insertion_m pl pr pw w m (Q : unit -> (Z -> T) -> Prop) :
    pl <= pr -> pr - pl < Z.of_nat F -> (forall x, pl <= x < pr -> ok x = true) -> (forall x, pl <= x < pr -> P (m x)) ->
    (forall m', mpost lt m pl pr pw w m' -> Q tt m') -> wp ok (insertion F LT pl pr) Q m.
  Proof.
    intros H1 H2 H3 H4 HQ. apply (insertion_ok F LT lt P LT_ok SW); try assumption; try lia.
    intros m' (K1 & K2 & K3). apply HQ. split; [exact K1|split; [exact K2|]]. intros x Hx _. now apply K3.
  Qed.

  (** facts after both halves are sorted in place *)
  Lemma halves m m1 m2 pl pm pr pw w :
    pl <= pm <= pr -> (pw + w <= pl \/ pr <= pw) ->
    mpost lt m pm pr pw w m1 -> mpost lt m1 pl pm pw w m2 ->
    srel lt (seg m pl pr) (seg m2 pl pm ++ seg m2 pm pr) /\ sorted_seg lt m2 pl pm /\ sorted_seg lt m2 pm pr /\
    same_out2 m m2 pl pr pw (pw + w).
  Proof.
    intros Hm Hdis (A1 & A2 & A3) (B1 & B2 & B3).
    assert (E1 : seg m1 pl pm = seg m pl pm) by (apply seg_ext; intros; apply A3; lia).
    assert (E2 : seg m2 pm pr = seg m1 pm pr) by (apply seg_ext; intros; apply B3; lia).
    split; [|split; [exact B2|split]].
    - rewrite (seg_split m pl pm pr) by lia. apply srel_app; [rewrite <- E1; exact B1|rewrite E2; exact A1].
    - intros i j Hi Hj. rewrite !B3 by lia. apply A2; lia.
    - intros x H1 H2. rewrite B3, A3 by lia. reflexivity.
  Qed.

  Lemma mpost_P m m1 a b lo hi pw w :
    lo <= a -> b <= hi -> (forall x, lo <= x < hi -> P (m x)) ->
    (pw + w <= lo \/ hi <= pw) -> mpost lt m a b pw w m1 ->
    forall x, lo <= x < hi -> P (m1 x).
  Proof.
    intros H1 H2 HP Hdis (A1 & A2 & A3) x Hx.
    destruct (Z.lt_ge_cases x a); [|destruct (Z.lt_ge_cases x b)].
    - rewrite A3 by lia. now apply HP.
    - eapply (srel_all lt P m1 m a b A1); [intros y Hy; apply HP; lia|lia].
    - rewrite A3 by lia. now apply HP.
  Qed.

  Lemma mpost_w m m1 a b pw w w' : w <= w' -> mpost lt m a b pw w m1 -> mpost lt m a b pw w' m1.
  Proof. intros H (A1 & A2 & A3). split; [exact A1|split; [exact A2|]]. intros x H1 H2. apply A3; [exact H1|lia]. Qed.

  (** ** indirect: amergesort0_ *)
  Section Indirect.
    Variable RAWLT : T -> T -> option bool.
    Hypothesis RAW_ok : forall x y, P x -> P y -> RAWLT x y = Some (lt x y).

    Lemma amergesort_both : forall f,
      (forall pl pr pw m (Q : unit -> (Z -> T) -> Prop),
        pl <= pr -> pr - pl < Z.of_nat f -> pr - pl < Z.of_nat F ->
        (pw + (pr - pl) / 2 <= pl \/ pr <= pw) ->
        (forall x, pl <= x < pr -> ok x = true) -> (forall x, pw <= x < pw + (pr - pl) / 2 -> ok x = true) ->
        (forall x, pl <= x < pr -> P (m x)) ->
        (forall m', mpost lt m pl pr pw ((pr - pl) / 2) m' -> Q tt m') ->
        wp ok (amergesort0_ F LT RAWLT f pl pr pw) Q m) /\
      (forall pl pr pw m (Q : bool -> (Z -> T) -> Prop),
        pl <= pr -> pr - pl < Z.of_nat f -> pr - pl < Z.of_nat F ->
        (pw + (pr - pl) <= pl \/ pr <= pw) ->
        (forall x, pl <= x < pr -> ok x = true) -> (forall x, pw <= x < pw + (pr - pl) -> ok x = true) ->
        (forall x, pl <= x < pr -> P (m x)) ->
        (forall b m', lpost m pl pr pw b m' -> Q b m') ->
        wp ok (amergesort0left_ F LT RAWLT f pl pr pw) Q m).
    Proof.
      induction f as [|f [IH IHl]]; [split; intros; lia|]. split.
      - intros pl pr pw m Q Hle Hf HF Hdis Hok1 Hok2 HP HQ.
        cbn [amergesort0_]. destruct (SMALL_MERGESORT <? pr - pl) eqn:E; unfold SMALL_MERGESORT in E.
        2:{ eapply insertion_m; eauto. }
        pose proof (half pl pr ltac:(lia)) as Hw. cbv zeta in Hw. set (w := (pr - pl) / 2) in *. set (pm := pl + w).
        pose proof (half_le (pm - pl) w ltac:(unfold pm; lia)) as Q1.
        pose proof (half_le (pr - pm) w ltac:(unfold pm; lia)) as Q2.
        apply wp_bind. apply IH; try lia.
        { intros x Hx. apply Hok1. lia. }
        { intros x Hx. apply Hok2. lia. }
        { intros x Hx. apply HP. lia. }
        intros m1 M1. apply (mpost_w _ _ _ _ _ _ w) in M1; [|lia].
        pose proof (mpost_P m m1 pm pr pl pr pw w ltac:(lia) ltac:(lia) HP Hdis M1) as HP1.
        apply wp_bind. apply IHl; try lia.
        { intros x Hx. apply Hok1. lia. }
        { intros x Hx. apply Hok2. lia. }
        { intros x Hx. apply HP1. lia. }
        intros copied m2 (Lo & L).
        replace (pm - pl) with w in * by lia.
        assert (Go : forall m3, srel lt (seg m pl pr) (seg m3 pw (pw + w) ++ seg m3 pm pr) ->
                   sorted_seg lt m3 pw (pw + w) -> sorted_seg lt m3 pm pr -> same_out2 m m3 pl pr pw (pw + w) ->
                   (forall x, pw <= x < pw + w -> P (m3 x)) -> (forall x, pm <= x < pr -> P (m3 x)) ->
                   wp ok (let pwEnd := pw + w in
                     let! (p, _, d) := merge_loop F (fun l r => let! b := ask (RAWLT r l) in Ret (negb b)) pw pwEnd pm pr pl in
                     let! _ := copy_rest F p pwEnd d in Ret tt) Q m3).
        { intros m3 G1 G2 G3 G4 G5 G6. cbv zeta. eapply merge_back_ok with (lt := lt); try lia; try assumption.
          - intros l r Hl Hr. apply seg_In in Hl, Hr. destruct Hl as (i & Hi & <-), Hr as (j & Hj & <-).
            intros Q' m' HQ'. eapply wp_ask; [apply RAW_ok; [apply G6|apply G5]; assumption|]. now apply wp_ret.
          - intros m' HM Ho. apply HQ.
            apply (finish lt SW _ _ m) in HM; try assumption; try (apply sorted_seg_iff; assumption).
            destruct HM as [K1 K2]. split; [exact K1|split; [exact K2|]].
            intros x X1 X2. rewrite Ho by assumption. now apply G4. }
        destruct copied.
        + cbn [bind]. destruct L as [L1 L2]. destruct M1 as (A1 & A2 & A3).
          assert (E2 : seg m2 pm pr = seg m1 pm pr) by (apply seg_ext; intros; apply Lo; lia).
          assert (E1 : seg m1 pl pm = seg m pl pm) by (apply seg_ext; intros; apply A3; lia).
          apply Go.
          * rewrite (seg_split m pl pm pr) by lia. apply srel_app; [rewrite <- E1; exact L1|rewrite E2; exact A1].
          * exact L2.
          * intros i j Hi Hj. rewrite !Lo by lia. apply A2; lia.
          * intros x X1 X2. rewrite Lo, A3 by lia. reflexivity.
          * intros x Hx. assert (HI : In (m2 x) (seg m1 pl pm)).
            { eapply Permutation_in; [apply L1|]. apply seg_In. exists x. split; [lia|reflexivity]. }
            apply seg_In in HI. destruct HI as (i & Hi & <-). apply HP1. lia.
          * intros x Hx. rewrite Lo by lia. apply HP1. lia.
        + destruct L as [L1 L2].
          assert (M2 : mpost lt m1 pl pm pw w m2) by (split; [exact L1|split; [exact L2|exact Lo]]).
          destruct (halves m m1 m2 pl pm pr pw w ltac:(lia) Hdis M1 M2) as (H1 & H2 & H3 & H4).
          pose proof (mpost_P m1 m2 pl pm pl pr pw w ltac:(lia) ltac:(lia) HP1 Hdis M2) as HP2.
          apply wp_bind. apply wp_rd; [apply Hok1; lia|]. apply wp_rd; [apply Hok1; lia|].
          eapply wp_ask; [apply LT_ok; apply HP2; lia|].
          destruct (lt (m2 pm) (m2 (pm - 1))) eqn:El.
          * apply memcpy_ok; try lia.
            { intros k Hk. split; [apply Hok1; lia|apply Hok2; lia]. }
            intros m3 Hc Hf3. apply wp_ret.
            assert (EA : seg m3 pw (pw + w) = seg m2 pl pm).
            { replace (pw + w) with (pw + (pm - pl)) by lia. apply (seg_shift m3 m2 pl pm pw). intros x Hx. rewrite Hc by lia. f_equal. lia. }
            assert (EB : seg m3 pm pr = seg m2 pm pr) by (apply seg_ext; intros; apply Hf3; lia).
            apply Go.
            -- rewrite EA, EB. exact H1.
            -- apply sorted_seg_iff. rewrite EA. now apply sorted_seg_iff.
            -- apply sorted_seg_iff. rewrite EB. now apply sorted_seg_iff.
            -- intros x X1 X2. rewrite Hf3 by lia. apply H4; lia.
            -- intros x Hx. replace x with (pw + (x - pw)) by lia. rewrite Hc by lia. apply HP2. lia.
            -- intros x Hx. rewrite Hf3 by lia. apply HP2. lia.
          * apply wp_ret. apply wp_ret. apply HQ. split; [|split; [|exact H4]].
            -- rewrite (seg_split m2 pl pm pr) by lia. exact H1.
            -- apply (sorted_join lt SW m2 pl pm pr); auto; lia.
      - intros pl pr pw m Q Hle Hf HF Hdis Hok1 Hok2 HP HQ.
        cbn [amergesort0left_]. destruct (SMALL_MERGESORT <? pr - pl) eqn:E; unfold SMALL_MERGESORT in E.
        2:{ apply wp_bind. eapply insertion_m with (pw := pw) (w := pr - pl); eauto.
            intros m' (K1 & K2 & K3). apply wp_ret. apply HQ. split; [exact K3|split; assumption]. }
        pose proof (half pl pr ltac:(lia)) as Hw. cbv zeta in Hw. set (w := (pr - pl) / 2) in *. set (pm := pl + w).
        pose proof (half_le (pm - pl) w ltac:(unfold pm; lia)) as Q1.
        pose proof (half_le (pr - pm) w ltac:(unfold pm; lia)) as Q2.
        assert (Hdw : pw + w <= pl \/ pr <= pw) by lia.
        apply wp_bind. apply IH; try lia.
        { intros x Hx. apply Hok1. lia. }
        { intros x Hx. apply Hok2. lia. }
        { intros x Hx. apply HP. lia. }
        intros m1 M1. apply (mpost_w _ _ _ _ _ _ w) in M1; [|lia].
        pose proof (mpost_P m m1 pm pr pl pr pw w ltac:(lia) ltac:(lia) HP Hdw M1) as HP1.
        apply wp_bind. apply IH; try lia.
        { intros x Hx. apply Hok1. lia. }
        { intros x Hx. apply Hok2. lia. }
        { intros x Hx. apply HP1. lia. }
        intros m2 M2. apply (mpost_w _ _ _ _ _ _ w) in M2; [|lia].
        destruct (halves m m1 m2 pl pm pr pw w ltac:(lia) Hdw M1 M2) as (H1 & H2 & H3 & H4).
        pose proof (mpost_P m1 m2 pl pm pl pr pw w ltac:(lia) ltac:(lia) HP1 Hdw M2) as HP2.
        apply wp_rd; [apply Hok1; lia|]. apply wp_rd; [apply Hok1; lia|].
        eapply wp_ask; [apply LT_ok; apply HP2; lia|].
        destruct (lt (m2 pm) (m2 (pm - 1))) eqn:El.
        + eapply merge_out_ok with (lt := lt); try lia; try assumption.
          * intros l r Hl Hr. apply seg_In in Hl, Hr. destruct Hl as (i & Hi & <-), Hr as (j & Hj & <-).
            apply (ask_lf LT lt P LT_ok); apply HP2; lia.
          * intros m3 C HM EC Ho. rewrite (seg_nil m2 pr pr), app_nil_r in EC by lia. subst C.
            apply HQ. split.
            -- intros x X1 X2. rewrite Ho by lia. apply H4; lia.
            -- split.
               ++ eapply srel_trans; [exact H1|]. apply mrg_srel; [exact SW|exact HM|now apply sorted_seg_iff].
               ++ apply sorted_seg_iff. eapply mrg_sorted; [exact SW|exact HM|now apply sorted_seg_iff|now apply sorted_seg_iff].
        + apply wp_ret. apply HQ. split.
          * intros x X1 X2. apply H4; lia.
          * split; [rewrite (seg_split m2 pl pm pr) by lia; exact H1|apply (sorted_join lt SW m2 pl pm pr); auto; lia].
    Qed.
  End Indirect.
  (** ** direct: mergesort0_ with the NaN tail *)
  Section Direct.
    Variables (LE : T -> T -> bool) (isnan : T -> bool).
    Hypothesis N1 : forall l r, isnan r = false -> LE l r = negb (lt r l).
    Hypothesis N2 : forall x y, isnan x = true -> lt x y = false.
    Hypothesis N3 : forall x y, isnan x = true -> isnan y = false -> lt y x = true.

    Lemma find_nans_ok {A} pr pm m (f : Z -> prog T A) (Q : A -> (Z -> T) -> Prop) :
      pm < pr -> pr - pm < Z.of_nat F -> (forall x, pm <= x < pr -> ok x = true) -> sorted_seg lt m pm pr ->
      (forall pr', pm <= pr' <= pr -> (forall x, pr' <= x < pr -> isnan (m x) = true) ->
         (forall x, pm <= x < pr' -> isnan (m x) = false) -> wp ok (f pr') Q m) ->
      wp ok (bind (find_nans F isnan pr pm) f) Q m.
    Proof.
      intros Hlt HF Hok Hs HQ. unfold find_nans.
      eapply wp_loop_b with (Inv := fun p m' => m' = m /\ pm < p <= pr /\ forall x, p <= x < pr -> isnan (m x) = true)
        (meas := fun p => p - pm)
        (P := fun p m' => m' = m /\ pm <= p <= pr /\ (forall x, p <= x < pr -> isnan (m x) = true) /\
                          (forall x, pm <= x < p -> isnan (m x) = false)).
      - intros p m' (-> & Hp & Hn). apply wp_rd; [apply Hok; lia|].
        destruct (isnan (m (p - 1))) eqn:E.
        + assert (Hn' : forall x, p - 1 <= x < pr -> isnan (m x) = true).
          { intros x Hx. destruct (Z.eq_dec x (p - 1)) as [->|]; [exact E|apply Hn; lia]. }
          destruct (pm <? p - 1) eqn:E2; apply wp_ret.
          * split; [|lia]. split; [reflexivity|]. split; [lia|exact Hn'].
          * split; [reflexivity|]. split; [lia|]. split; [exact Hn'|intros x Hx; lia].
        + apply wp_ret. split; [reflexivity|]. split; [lia|]. split; [exact Hn|].
          intros x Hx. destruct (Z.eq_dec x (p - 1)) as [->|Hne]; [exact E|].
          destruct (isnan (m x)) eqn:Ex; [|reflexivity].
          pose proof (Hs x (p - 1) ltac:(lia) ltac:(lia)) as C. unfold Sort_Base_Proofs.le in C.
          rewrite (N3 _ _ Ex E) in C. discriminate.
      - intros p m' (_ & Hp & _). lia.
      - split; [reflexivity|]. split; [lia|]. intros x Hx; lia.
      - lia.
      - intros p m' (-> & H1 & H2 & H3). now apply HQ.
    Qed.

    (** the final merge: left run in the workspace, right run [pm,pr) *)
    Lemma nan_merge_ok pl pm pr pw w m0 m (Q : unit -> (Z -> T) -> Prop) :
      pm = pl + w -> 0 < w -> pm < pr -> pr - pl < Z.of_nat F -> (pw + w <= pl \/ pr <= pw) ->
      (forall x, pl <= x < pr -> ok x = true) -> (forall x, pw <= x < pw + w -> ok x = true) ->
      srel lt (seg m0 pl pr) (seg m pw (pw + w) ++ seg m pm pr) ->
      sorted_seg lt m pw (pw + w) -> sorted_seg lt m pm pr -> same_out2 m0 m pl pr pw (pw + w) ->
      (forall m', mpost lt m0 pl pr pw w m' -> Q tt m') ->
      forall pr', pm <= pr' <= pr -> (forall x, pr' <= x < pr -> isnan (m x) = true) ->
         (forall x, pm <= x < pr' -> isnan (m x) = false) ->
      wp ok (let! (p, _, d) := merge_loop F (fun l r => Ret (LE l r)) pw (pw + w) pm pr' pl in
             let! _ := copy_rest F p (pw + w) d in Ret tt) Q m.
    Proof.
      intros Hpm Hw Hpr HF Hdis Hok1 Hok2 G1 G2 G3 G4 HQ pr' Hpr' Hn1 Hn2.
      eapply merge_back_ok with (lt := lt); try lia; try assumption.
      - intros l r Hl Hr. apply seg_In in Hr. destruct Hr as (j & Hj & <-).
        intros Q' m' HQ'. apply wp_ret. rewrite N1 by (apply Hn2; lia). exact HQ'.
      - intros x Hx. apply Hok1. lia.
      - intros m' HM Ho.
        assert (HM' : mrg lt (seg m pw (pw + w)) (seg m pm pr) (seg m' pl pr)).
        { rewrite (seg_split m pm pr' pr), (seg_split m' pl pr' pr) by lia.
          rewrite (seg_ext m' m pr' pr) by (intros; apply Ho; lia).
          apply mrg_tail; [|exact HM]. intros b a Hb. apply seg_In in Hb. destruct Hb as (i & Hi & <-).
          apply N2. apply Hn1. lia. }
        apply HQ. apply (finish lt SW _ _ m0) in HM'; try assumption; try (apply sorted_seg_iff; assumption).
        destruct HM' as [K1 K2]. split; [exact K1|split; [exact K2|]].
        intros x X1 X2. rewrite Ho by lia. apply G4; lia.
    Qed.

    Lemma mergesort_both : forall f,
      (forall pl pr pw m (Q : unit -> (Z -> T) -> Prop),
        pl <= pr -> pr - pl < Z.of_nat f -> pr - pl < Z.of_nat F ->
        (pw + (pr - pl) / 2 <= pl \/ pr <= pw) ->
        (forall x, pl <= x < pr -> ok x = true) -> (forall x, pw <= x < pw + (pr - pl) / 2 -> ok x = true) ->
        (forall x, pl <= x < pr -> P (m x)) ->
        (forall m', mpost lt m pl pr pw ((pr - pl) / 2) m' -> Q tt m') ->
        wp ok (mergesort0_ F LT LE isnan f pl pr pw) Q m) /\
      (forall pl pr pw m (Q : bool -> (Z -> T) -> Prop),
        pl <= pr -> pr - pl < Z.of_nat f -> pr - pl < Z.of_nat F ->
        (pw + (pr - pl) <= pl \/ pr <= pw) ->
        (forall x, pl <= x < pr -> ok x = true) -> (forall x, pw <= x < pw + (pr - pl) -> ok x = true) ->
        (forall x, pl <= x < pr -> P (m x)) ->
        (forall b m', lpost m pl pr pw b m' -> Q b m') ->
        wp ok (mergesort0left_ F LT LE isnan f pl pr pw) Q m).
    Proof.
      induction f as [|f [IH IHl]]; [split; intros; lia|]. split.
      - intros pl pr pw m Q Hle Hf HF Hdis Hok1 Hok2 HP HQ.
        cbn [mergesort0_]. destruct (SMALL_MERGESORT <? pr - pl) eqn:E; unfold SMALL_MERGESORT in E.
        2:{ eapply insertion_m; eauto. }
        pose proof (half pl pr ltac:(lia)) as Hw. cbv zeta in Hw. set (w := (pr - pl) / 2) in *. set (pm := pl + w).
        pose proof (half_le (pm - pl) w ltac:(unfold pm; lia)) as Q1.
        pose proof (half_le (pr - pm) w ltac:(unfold pm; lia)) as Q2.
        apply wp_bind. apply IH; try lia.
        { intros x Hx. apply Hok1. lia. }
        { intros x Hx. apply Hok2. lia. }
        { intros x Hx. apply HP. lia. }
        intros m1 M1. apply (mpost_w _ _ _ _ _ _ w) in M1; [|lia].
        pose proof (mpost_P m m1 pm pr pl pr pw w ltac:(lia) ltac:(lia) HP Hdis M1) as HP1.
        apply wp_bind. apply IHl; try lia.
        { intros x Hx. apply Hok1. lia. }
        { intros x Hx. apply Hok2. lia. }
        { intros x Hx. apply HP1. lia. }
        intros copied m2 (Lo & L).
        replace (pm - pl) with w in * by lia. cbv zeta.
        destruct copied.
        + destruct L as [L1 L2]. destruct M1 as (A1 & A2 & A3).
          assert (E2 : seg m2 pm pr = seg m1 pm pr) by (apply seg_ext; intros; apply Lo; lia).
          assert (E1 : seg m1 pl pm = seg m pl pm) by (apply seg_ext; intros; apply A3; lia).
          assert (HPw : forall x, pw <= x < pw + w -> P (m2 x)).
          { intros x Hx. assert (HI : In (m2 x) (seg m1 pl pm)).
            { eapply Permutation_in; [apply L1|]. apply seg_In. exists x. split; [lia|reflexivity]. }
            apply seg_In in HI. destruct HI as (i & Hi & <-). apply HP1. lia. }
          assert (HPr : forall x, pm <= x < pr -> P (m2 x)) by (intros x Hx; rewrite Lo by lia; apply HP1; lia).
          assert (G1 : srel lt (seg m pl pr) (seg m2 pw (pw + w) ++ seg m2 pm pr)).
          { rewrite (seg_split m pl pm pr) by lia. apply srel_app; [rewrite <- E1; exact L1|rewrite E2; exact A1]. }
          assert (G3 : sorted_seg lt m2 pm pr) by (intros i j Hi Hj; rewrite !Lo by lia; apply A2; lia).
          assert (G4 : same_out2 m m2 pl pr pw (pw + w)) by (intros x X1 X2; rewrite Lo, A3 by lia; reflexivity).
          apply wp_rd; [apply Hok1; lia|]. apply wp_rd; [apply Hok2; lia|].
          eapply wp_ask; [apply LT_ok; [apply HPr; lia|apply HPw; lia]|].
          destruct (lt (m2 pm) (m2 (pw + w - 1))) eqn:El.
          * apply find_nans_ok; try lia; try assumption.
            { intros x Hx. apply Hok1. lia. }
            intros pr' Hpr' Hn1 Hn2. eapply nan_merge_ok with (m0 := m) (pr := pr); try lia; try assumption.
          * eapply memcpy_ok0; try lia.
            { intros k Hk. split; [apply Hok2; lia|apply Hok1; lia]. }
            intros m3 Hc Hf3.
            assert (EA : seg m3 pl pm = seg m2 pw (pw + w)).
            { replace pm with (pl + (pw + w - pw)) by lia. apply (seg_shift m3 m2 pw (pw + w) pl). intros x Hx. rewrite Hc by lia. f_equal. lia. }
            assert (EB : seg m3 pm pr = seg m2 pm pr) by (apply seg_ext; intros; apply Hf3; lia).
            apply HQ. split; [|split].
            -- rewrite (seg_split m3 pl pm pr), EA, EB by lia. exact G1.
            -- apply (sorted_join lt SW m3 pl pm pr); try lia.
               ++ apply sorted_seg_iff. rewrite EA. now apply sorted_seg_iff.
               ++ apply sorted_seg_iff. rewrite EB. now apply sorted_seg_iff.
               ++ intros _ _. rewrite (Hf3 pm) by lia. replace (pm - 1) with (pl + (w - 1)) by lia. rewrite Hc by lia.
                  replace (pw + (w - 1)) with (pw + w - 1) by lia. exact El.
            -- intros x X1 X2. rewrite Hf3 by lia. apply G4; lia.
        + destruct L as [L1 L2].
          assert (M2 : mpost lt m1 pl pm pw w m2) by (split; [exact L1|split; [exact L2|exact Lo]]).
          destruct (halves m m1 m2 pl pm pr pw w ltac:(lia) Hdis M1 M2) as (H1 & H2 & H3 & H4).
          pose proof (mpost_P m1 m2 pl pm pl pr pw w ltac:(lia) ltac:(lia) HP1 Hdis M2) as HP2.
          apply wp_rd; [apply Hok1; lia|]. apply wp_rd; [apply Hok1; lia|].
          eapply wp_ask; [apply LT_ok; apply HP2; lia|].
          destruct (lt (m2 pm) (m2 (pm - 1))) eqn:El.
          * apply find_nans_ok; try lia; try assumption.
            { intros x Hx. apply Hok1. lia. }
            intros pr' Hpr' Hn1 Hn2.
            apply memcpy_ok; try lia.
            { intros k Hk. split; [apply Hok1; lia|apply Hok2; lia]. }
            intros m3 Hc Hf3.
            assert (EA : seg m3 pw (pw + w) = seg m2 pl pm).
            { replace (pw + w) with (pw + (pm - pl)) by lia. apply (seg_shift m3 m2 pl pm pw). intros x Hx. rewrite Hc by lia. f_equal. lia. }
            assert (EB : seg m3 pm pr = seg m2 pm pr) by (apply seg_ext; intros; apply Hf3; lia).
            eapply nan_merge_ok with (m0 := m) (pr := pr); try lia; try assumption.
            -- rewrite EA, EB. exact H1.
            -- apply sorted_seg_iff. rewrite EA. now apply sorted_seg_iff.
            -- apply sorted_seg_iff. rewrite EB. now apply sorted_seg_iff.
            -- intros x X1 X2. rewrite Hf3 by lia. apply H4; lia.
            -- intros x Hx. rewrite Hf3 by lia. apply Hn1. lia.
            -- intros x Hx. rewrite Hf3 by lia. apply Hn2. lia.
          * apply wp_ret. apply HQ. split; [|split; [|exact H4]].
            -- rewrite (seg_split m2 pl pm pr) by lia. exact H1.
            -- apply (sorted_join lt SW m2 pl pm pr); auto; lia.
      - intros pl pr pw m Q Hle Hf HF Hdis Hok1 Hok2 HP HQ.
        cbn [mergesort0left_]. destruct (SMALL_MERGESORT <? pr - pl) eqn:E; unfold SMALL_MERGESORT in E.
        2:{ apply wp_bind. eapply insertion_m with (pw := pw) (w := pr - pl); eauto.
            intros m' (K1 & K2 & K3). apply wp_ret. apply HQ. split; [exact K3|split; assumption]. }
        pose proof (half pl pr ltac:(lia)) as Hw. cbv zeta in Hw. set (w := (pr - pl) / 2) in *. set (pm := pl + w).
        pose proof (half_le (pm - pl) w ltac:(unfold pm; lia)) as Q1.
        pose proof (half_le (pr - pm) w ltac:(unfold pm; lia)) as Q2.
        assert (Hdw : pw + w <= pl \/ pr <= pw) by lia.
        apply wp_bind. apply IH; try lia.
        { intros x Hx. apply Hok1. lia. }
        { intros x Hx. apply Hok2. lia. }
        { intros x Hx. apply HP. lia. }
        intros m1 M1. apply (mpost_w _ _ _ _ _ _ w) in M1; [|lia].
        pose proof (mpost_P m m1 pm pr pl pr pw w ltac:(lia) ltac:(lia) HP Hdw M1) as HP1.
        apply wp_bind. apply IH; try lia.
        { intros x Hx. apply Hok1. lia. }
        { intros x Hx. apply Hok2. lia. }
        { intros x Hx. apply HP1. lia. }
        intros m2 M2. apply (mpost_w _ _ _ _ _ _ w) in M2; [|lia].
        destruct (halves m m1 m2 pl pm pr pw w ltac:(lia) Hdw M1 M2) as (H1 & H2 & H3 & H4).
        pose proof (mpost_P m1 m2 pl pm pl pr pw w ltac:(lia) ltac:(lia) HP1 Hdw M2) as HP2.
        apply wp_rd; [apply Hok1; lia|]. apply wp_rd; [apply Hok1; lia|].
        eapply wp_ask; [apply LT_ok; apply HP2; lia|].
        destruct (lt (m2 pm) (m2 (pm - 1))) eqn:El.
        + apply find_nans_ok; try lia; try assumption.
          { intros x Hx. apply Hok1. lia. }
          intros pr' Hpr' Hn1 Hn2.
          eapply merge_out_ok with (lt := lt); try lia; try assumption.
          * intros l r Hl Hr. apply seg_In in Hr. destruct Hr as (j & Hj & <-).
            intros Q' m' HQ'. apply wp_ret. rewrite N1 by (apply Hn2; lia). exact HQ'.
          * intros m3 C HM EC Ho.
            assert (HM' : mrg lt (seg m2 pl pm) (seg m2 pm pr) (C ++ seg m2 pr' pr)).
            { rewrite (seg_split m2 pm pr' pr) by lia. apply mrg_tail; [|exact HM].
              intros b a Hb. apply seg_In in Hb. destruct Hb as (i & Hi & <-). apply N2. apply Hn1. lia. }
            apply HQ. split.
            -- intros x X1 X2. rewrite Ho by lia. apply H4; lia.
            -- rewrite EC. split.
               ++ eapply srel_trans; [exact H1|]. apply mrg_srel; [exact SW|exact HM'|now apply sorted_seg_iff].
               ++ apply sorted_seg_iff. rewrite EC. eapply mrg_sorted; [exact SW|exact HM'|now apply sorted_seg_iff|now apply sorted_seg_iff].
        + apply wp_ret. apply HQ. split.
          * intros x X1 X2. apply H4; lia.
          * split; [rewrite (seg_split m2 pl pm pr) by lia; exact H1|apply (sorted_join lt SW m2 pl pm pr); auto; lia].
    Qed.
  End Direct.
End Num.
