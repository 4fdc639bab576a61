(** Sort_Merge_Base_Proofs.v - merging two sorted runs. *)
From Coq Require Import Sorted.
From Verif Require Import Base Sort_Model Sort_Base_Proofs Sort_Insert_Proofs.

Section MergeLists.
  Context {T : Type}.
  Variable lt : T -> T -> bool.
  Hypothesis SW : strict_weak lt.
  Notation le := (le lt).

  (** [mrg A B C]: C is the merge of A and B that prefers A on ties *)
  Inductive mrg : list T -> list T -> list T -> Prop :=
  | mrg_nil_l B : mrg [] B B
  | mrg_nil_r A : mrg A [] A
  | mrg_l a A b B C : lt b a = false -> mrg A (b :: B) C -> mrg (a :: A) (b :: B) (a :: C)
  | mrg_r a A b B C : lt b a = true -> mrg (a :: A) B C -> mrg (a :: A) (b :: B) (b :: C).

  Lemma mrg_perm A B C : mrg A B C -> Permutation C (A ++ B).
  Proof.
    induction 1 as [B|A|a A b B C H1 H2 IH|a A b B C H1 H2 IH].
    - apply Permutation_refl.
    - rewrite app_nil_r. apply Permutation_refl.
    - cbn. now constructor.
    - eapply Permutation_trans; [apply perm_skip, IH|]. apply (Permutation_middle (a :: A) B b).
  Qed.

  Lemma mrg_srel A B C : mrg A B C -> StronglySorted le A -> srel lt (A ++ B) C.
  Proof.
    intros H HA. split; [now apply mrg_perm|]. intros x. revert HA.
    induction H as [B|A|a A b B C H1 H2 IH|a A b B C H1 H2 IH]; intros HA.
    - reflexivity.
    - now rewrite app_nil_r.
    - cbn [app filter]. inversion HA; subst. rewrite IH by assumption. reflexivity.
    - cbn [filter]. rewrite IH by assumption.
      rewrite (filter_app _ (a :: A) B), (filter_app _ (a :: A) (b :: B)).
      destruct (eqv lt x b) eqn:E; [|cbn [filter]; rewrite E; reflexivity].
      assert (filter (eqv lt x) (a :: A) = []) as ->; [|cbn [filter app]; rewrite E; reflexivity].
      assert (Hall : forall y, In y (a :: A) -> lt b y = true).
      { intros y [<-|Hy]; [exact H1|]. inversion HA as [|? ? _ Hf]; subst. rewrite Forall_forall in Hf.
        specialize (Hf y Hy). destruct (lt b y) eqn:E'; [reflexivity|exfalso].
        pose proof (le_trans lt SW a y b Hf E') as C0. unfold Sort_Base_Proofs.le in C0. congruence. }
      clear - Hall E SW. induction (a :: A) as [|y l IHl]; [reflexivity|]. cbn [filter].
      destruct (eqv lt x y) eqn:Ey.
      + exfalso. eapply (eqv_not_both lt SW x y b); [apply Hall; now left|exact Ey|exact E].
      + apply IHl. intros z Hz. apply Hall. now right.
  Qed.

  Lemma mrg_sorted A B C : mrg A B C -> StronglySorted le A -> StronglySorted le B -> StronglySorted le C.
  Proof.
    induction 1 as [B|A|a A b B C H1 H2 IH|a A b B C H1 H2 IH]; intros HA HB; try assumption.
    - inversion HA as [|? ? HA' Hf]; subst. constructor; [now apply IH|].
      apply Forall_forall. intros y Hy. apply (Permutation_in _ (mrg_perm _ _ _ H2)) in Hy.
      apply in_app_or in Hy. rewrite Forall_forall in Hf. destruct Hy as [Hy|[<-|Hy]]; [now apply Hf|exact H1|].
      inversion HB as [|? ? _ Hg]; subst. rewrite Forall_forall in Hg.
      eapply le_trans; [exact SW|exact H1|now apply Hg].
    - inversion HB as [|? ? HB' Hg]; subst. constructor; [now apply IH|].
      apply Forall_forall. intros y Hy. apply (Permutation_in _ (mrg_perm _ _ _ H2)) in Hy.
      apply in_app_or in Hy. rewrite Forall_forall in Hg.
      assert (Hba : le b a) by now apply lt_le.
      destruct Hy as [[<-|Hy]|Hy]; [exact Hba| |now apply Hg].
      inversion HA as [|? ? _ Hf]; subst. rewrite Forall_forall in Hf.
      eapply le_trans; [exact SW|exact Hba|now apply Hf].
  Qed.

  (** a tail of maximal items on the right stays a tail *)
  Lemma mrg_tail A B1 B2 C : (forall b a, In b B2 -> lt b a = false) -> mrg A B1 C -> mrg A (B1 ++ B2) (C ++ B2).
  Proof.
    intros Hmax. induction 1 as [B|A|a A b B C H1 H2 IH|a A b B C H1 H2 IH].
    - constructor.
    - cbn. clear - Hmax. destruct B2 as [|b B2]; [rewrite app_nil_r; constructor|].
      induction A as [|a A IHA]; [constructor|]. cbn. constructor; [apply Hmax; now left|exact IHA].
    - cbn. now constructor.
    - cbn. now constructor.
  Qed.

  Lemma sorted_seg_iff m lo hi : sorted_seg lt m lo hi <-> StronglySorted le (seg m lo hi).
  Proof.
    split.
    - intros H. remember (Z.to_nat (hi - lo)) as k. revert lo Heqk H.
      induction k as [|k IH]; intros lo Hk H.
      + rewrite seg_nil by lia. constructor.
      + rewrite seg_cons by lia. constructor.
        * apply IH; [lia|]. intros i j Hi Hj. apply H; lia.
        * apply Forall_forall. intros y Hy. apply seg_In in Hy. destruct Hy as (j & Hj & <-). apply H; lia.
    - intros H i j Hi Hj.
      rewrite (seg_split m lo i hi) in H by lia.
      assert (H' : StronglySorted le (seg m i hi)).
      { clear - H. induction (seg m lo i) as [|a l IH]; [exact H|]. apply IH. now inversion H. }
      rewrite seg_cons in H' by lia. inversion H' as [|? ? _ Hf]; subst. rewrite Forall_forall in Hf.
      apply Hf. apply seg_In. exists j. split; [lia|reflexivity].
  Qed.

  Lemma sorted_seg_ext m m' lo hi : (forall i, lo <= i < hi -> m i = m' i) -> sorted_seg lt m lo hi -> sorted_seg lt m' lo hi.
  Proof. intros E H i j Hi Hj. rewrite <- !E by lia. now apply H. Qed.
End MergeLists.

(** a segment copied elsewhere *)
Lemma seg_shift {T} (mm m : Z -> T) a b c :
  (forall x, a <= x < b -> mm (c + (x - a)) = m x) -> seg mm c (c + (b - a)) = seg m a b.
Proof.
  intros Hx. unfold seg. replace (zrange c (c + (b - a))) with (map (fun x => c + (x - a)) (zrange a b)).
  - rewrite map_map. apply map_ext_in. intros x Hi. apply zrange_In in Hi. now apply Hx.
  - unfold zrange. replace (c + (b - a) - c) with (b - a) by lia.
    assert (G : forall n a', map (fun x => c + (x - a)) (zseq a' n) = zseq (c + (a' - a)) n).
    { induction n as [|n IH]; intros a'; cbn; [reflexivity|]. rewrite IH. f_equal. f_equal. lia. }
    rewrite G. f_equal. lia.
Qed.

Section MergeProgs.
  Context {T : Type}.
  Variables (F : nat) (lt : T -> T -> bool).
  Variable ok : Z -> bool.

  Lemma memcpy_ok {A} dst src n m (f : unit -> prog T A) (Q : A -> (Z -> T) -> Prop) :
    0 <= n < Z.of_nat F ->
    (forall k, 0 <= k < n -> ok (src + k) = true /\ ok (dst + k) = true) ->
    (dst + n <= src \/ src + n <= dst \/ n = 0) ->
    (forall m', (forall k, 0 <= k < n -> m' (dst + k) = m (src + k)) -> same_out m m' dst (dst + n) -> wp ok (f tt) Q m') ->
    wp ok (bind (memcpy F dst src n) f) Q m.
  Proof.
    intros Hn Hok Hdis HQ. unfold memcpy.
    eapply wp_loop_b with (Inv := fun k m' => 0 <= k <= n /\ (forall i, 0 <= i < k -> m' (dst + i) = m (src + i)) /\ same_out m m' dst (dst + n))
      (meas := fun k => n - k)
      (P := fun _ m' => (forall k, 0 <= k < n -> m' (dst + k) = m (src + k)) /\ same_out m m' dst (dst + n)).
    - intros k m' (Hk & H1 & H2). destruct (k <? n) eqn:E.
      + destruct (Hok k ltac:(lia)) as [O1 O2]. apply wp_rd; [exact O1|]. apply wp_st; [exact O2|]. apply wp_ret.
        split; [|lia]. split; [lia|]. split.
        * intros i Hi. destruct (Z.eq_dec i k) as [->|Hn']; [rewrite zupd_eq; apply H2; lia|].
          rewrite zupd_neq by lia. apply H1. lia.
        * intros x Hx. rewrite zupd_neq by lia. now apply H2.
      + apply wp_ret. split; [intros i Hi; apply H1; lia|exact H2].
    - intros k m' (Hk & _). lia.
    - split; [lia|]. split; [intros; lia|intros x _; reflexivity].
    - lia.
    - intros [] m' [H1 H2]. now apply HQ.
  Qed.

  Lemma memcpy_ok0 dst src n m (Q : unit -> (Z -> T) -> Prop) :
    0 <= n < Z.of_nat F ->
    (forall k, 0 <= k < n -> ok (src + k) = true /\ ok (dst + k) = true) ->
    (dst + n <= src \/ src + n <= dst \/ n = 0) ->
    (forall m', (forall k, 0 <= k < n -> m' (dst + k) = m (src + k)) -> same_out m m' dst (dst + n) -> Q tt m') ->
    wp ok (memcpy F dst src n) Q m.
  Proof.
    intros Hn Hok Hdis HQ.
    assert (Hx : wp ok (bind (memcpy F dst src n) (fun _ => Ret tt)) Q m).
    { apply memcpy_ok; try assumption. }
    unfold wp in *. assert (G : forall (p : prog T unit) m, exec ok (bind p (fun _ => Ret tt)) m = exec ok p m).
    { induction p as [[]|x k IHk|x v k IHk| |]; intros mm; cbn; try reflexivity; [now rewrite IHk|now rewrite IHk]. }
    now rewrite G in Hx.
  Qed.

  Lemma copy_rest_ok {A} p e d m (f : Z -> prog T A) (Q : A -> (Z -> T) -> Prop) :
    e - p < Z.of_nat F -> 0 < Z.of_nat F ->
    (forall k, p <= k < e -> ok k = true /\ ok (d + (k - p)) = true) ->
    (d + (e - p) <= p \/ e <= d \/ e <= p) ->
    (forall m', (forall k, p <= k < e -> m' (d + (k - p)) = m k) ->
        same_out m m' d (d + (e - p)) -> wp ok (f (d + Z.max 0 (e - p))) Q m') ->
    wp ok (bind (copy_rest F p e d) f) Q m.
  Proof.
    intros HF HF0 Hok Hdis HQ. unfold copy_rest.
    eapply wp_loop_b with (Inv := fun pd m' => let '(p', d') := pd in p <= p' /\ p' <= Z.max e p /\ d' = d + (p' - p) /\
         (forall k, p <= k < p' -> m' (d + (k - p)) = m k) /\ same_out m m' d (d + (e - p)))
      (meas := fun pd => Z.max 0 (e - fst pd))
      (P := fun r m' => r = d + Z.max 0 (e - p) /\ (forall k, p <= k < e -> m' (d + (k - p)) = m k) /\ same_out m m' d (d + (e - p))).
    - intros [p' d'] m' (H1 & H2 & -> & H3 & H4). cbn [fst]. destruct (p' <? e) eqn:E.
      + destruct (Hok p' ltac:(lia)) as [O1 O2]. apply wp_rd; [exact O1|]. apply wp_st; [exact O2|]. apply wp_ret. cbn [fst].
        split; [|lia]. split; [lia|]. split; [lia|]. split; [lia|]. split.
        * intros k Hk. destruct (Z.eq_dec k p') as [->|Hn]; [rewrite zupd_eq; apply H4; lia|].
          rewrite zupd_neq by lia. apply H3. lia.
        * intros x Hx. rewrite zupd_neq by lia. now apply H4.
      + apply wp_ret. split; [lia|]. split; [intros k Hk; apply H3; lia|exact H4].
    - intros [p' d'] m' _. cbn. lia.
    - split; [lia|]. split; [lia|]. split; [lia|]. split; [intros; lia|intros x _; reflexivity].
    - cbn. lia.
    - intros r m' (-> & H1 & H2). now apply HQ.
  Qed.

  Lemma merge_loop_ok {A} (left_first : T -> T -> prog T bool) pl el pr er d0 m (f : Z * Z * Z -> prog T A) (Q : A -> (Z -> T) -> Prop) :
    pl <= el -> pr <= er -> (el - pl) + (er - pr) < Z.of_nat F ->
    (forall l r, In l (seg m pl el) -> In r (seg m pr er) ->
       forall (Q' : bool -> (Z -> T) -> Prop) m', Q' (negb (lt r l)) m' -> wp ok (left_first l r) Q' m') ->
    (forall k, pl <= k < el -> ok k = true) -> (forall k, pr <= k < er -> ok k = true) ->
    (forall k, d0 <= k < d0 + (el - pl) + (er - pr) -> ok k = true) ->
    (forall p q, pl <= p < el -> pr <= q < er ->
       ~ (p <= d0 + (p - pl) + (q - pr) < el) /\ ~ (q <= d0 + (p - pl) + (q - pr) < er)) ->
    (forall p q m', pl <= p <= el -> pr <= q <= er -> p = el \/ q = er ->
        (forall x, ~ (d0 <= x < d0 + (p - pl) + (q - pr)) -> m' x = m x) ->
        (forall k, p <= k < el -> m' k = m k) -> (forall k, q <= k < er -> m' k = m k) ->
        mrg lt (seg m pl el) (seg m pr er) (seg m' d0 (d0 + (p - pl) + (q - pr)) ++ seg m p el ++ seg m q er) ->
        wp ok (f (p, q, d0 + (p - pl) + (q - pr))) Q m') ->
    wp ok (bind (merge_loop F left_first pl el pr er d0) f) Q m.
  Proof.
    intros H1 H2 HF Hlf Hok1 Hok2 Hok3 Hsafe HQ. unfold merge_loop.
    set (I := fun (s : Z * Z * Z) m' => let '(p, q, d) := s in
         d = d0 + (p - pl) + (q - pr) /\ pl <= p <= el /\ pr <= q <= er /\
         (forall x, ~ (d0 <= x < d) -> m' x = m x) /\
         (forall k, p <= k < el -> m' k = m k) /\ (forall k, q <= k < er -> m' k = m k) /\
         (forall R, mrg lt (seg m p el) (seg m q er) R -> mrg lt (seg m pl el) (seg m pr er) (seg m' d0 d ++ R))).
    eapply wp_loop_b with (Inv := I) (meas := fun s => let '(p, q, d) := s in (el - p) + (er - q))
      (P := fun s m' => I s m' /\ let '(p, q, d) := s in p = el \/ q = er).
    - intros [[p q] d] m' HI. destruct HI as (-> & Hp & Hq & Hf & Hl & Hr & HR).
      set (d := d0 + (p - pl) + (q - pr)) in *.
      destruct ((p <? el) && (q <? er)) eqn:E.
      2:{ apply wp_ret. split; [|lia]. unfold I. repeat (split; [assumption||reflexivity|]). assumption. }
      destruct (Hsafe p q ltac:(lia) ltac:(lia)) as [S1 S2]. fold d in S1, S2.
      apply wp_rd; [apply Hok2; lia|]. apply wp_rd; [apply Hok1; lia|].
      rewrite (Hl p), (Hr q) by lia. apply wp_bind. apply Hlf.
      { apply seg_In. exists p. split; [lia|reflexivity]. }
      { apply seg_In. exists q. split; [lia|reflexivity]. }
      assert (Hseg : forall v, seg (zupd m' d v) d0 (d + 1) = seg m' d0 d ++ [v]).
      { intros v. rewrite seg_snoc by lia. replace (d + 1 - 1) with d by lia. rewrite zupd_eq. f_equal.
        apply seg_ext. intros i Hi. apply zupd_neq. lia. }
      destruct (lt (m q) (m p)) eqn:El; cbn [negb].
      + apply wp_st; [apply Hok3; lia|]. apply wp_ret. split; [|lia].
        split; [unfold d; lia|]. split; [lia|]. split; [lia|]. split; [|split; [|split]].
        * intros x Hx. rewrite zupd_neq by lia. apply Hf. lia.
        * intros k Hk. rewrite zupd_neq by lia. now apply Hl.
        * intros k Hk. rewrite zupd_neq by lia. apply Hr. lia.
        * intros R HR'. rewrite Hseg, <- app_assoc. apply HR. cbn [app].
          rewrite (seg_cons m p el), (seg_cons m q er) by lia. rewrite (seg_cons m p el) in HR' by lia.
          now constructor.
      + apply wp_st; [apply Hok3; lia|]. apply wp_ret. split; [|lia].
        split; [unfold d; lia|]. split; [lia|]. split; [lia|]. split; [|split; [|split]].
        * intros x Hx. rewrite zupd_neq by lia. apply Hf. lia.
        * intros k Hk. rewrite zupd_neq by lia. apply Hl. lia.
        * intros k Hk. rewrite zupd_neq by lia. now apply Hr.
        * intros R HR'. rewrite Hseg, <- app_assoc. apply HR. cbn [app].
          rewrite (seg_cons m p el), (seg_cons m q er) by lia. rewrite (seg_cons m q er) in HR' by lia.
          now constructor.
    - intros [[p q] d] m' (_ & Hp & Hq & _). lia.
    - unfold I. split; [lia|]. split; [lia|]. split; [lia|]. split; [auto|]. split; [auto|]. split; [auto|].
      intros R HR. rewrite (seg_nil m d0 d0) by lia. exact HR.
    - lia.
    - intros [[p q] d] m' [HI Hend]. destruct HI as (-> & Hp & Hq & Hf & Hl & Hr & HR).
      apply HQ; try assumption. apply HR. destruct Hend as [-> | ->].
      + rewrite (seg_nil m el el) by lia. constructor.
      + rewrite (seg_nil m er er) by lia. rewrite app_nil_r. constructor.
  Qed.

  (** merging from the workspace back over the left half: 818-835, 854-871, 1164-1175, 1355-1365, 1405-1416 *)
  Lemma merge_back_ok (left_first : T -> T -> prog T bool) pl pm pr pw k m (Q : unit -> (Z -> T) -> Prop) :
    pm = pl + k -> 0 <= k -> pm <= pr -> k + (pr - pm) < Z.of_nat F ->
    (pw + k <= pl \/ pr <= pw) ->
    (forall l r, In l (seg m pw (pw + k)) -> In r (seg m pm pr) ->
       forall (Q' : bool -> (Z -> T) -> Prop) m', Q' (negb (lt r l)) m' -> wp ok (left_first l r) Q' m') ->
    (forall x, pw <= x < pw + k -> ok x = true) -> (forall x, pl <= x < pr -> ok x = true) ->
    (forall m', mrg lt (seg m pw (pw + k)) (seg m pm pr) (seg m' pl pr) -> same_out m m' pl pr -> Q tt m') ->
    wp ok (let! (p, _, d) := merge_loop F left_first pw (pw + k) pm pr pl in
           let! _ := copy_rest F p (pw + k) d in Ret tt) Q m.
  Proof.
    intros -> Hk Hpr HF Hdis Hlf Hok1 Hok2 HQ.
    apply merge_loop_ok; try assumption; try lia.
    - intros x Hx. apply Hok2. lia.
    - intros x Hx. apply Hok2. lia.
    - intros p q m' Hp Hq Hend Hf Hl Hr HM.
      apply copy_rest_ok; try lia.
      + intros x Hx. split; [apply Hok1; lia|apply Hok2; lia].
      + intros m'' Hc Hf''. apply wp_ret. apply HQ.
        * set (d := pl + (p - pw) + (q - (pl + k))) in *.
          assert (E : seg m'' pl pr = seg m' pl d ++ seg m p (pw + k) ++ seg m q pr); [|rewrite E; exact HM].
          rewrite (seg_split m'' pl d pr) by (unfold d; lia). f_equal.
          { apply seg_ext. intros i Hi. apply Hf''. lia. }
          rewrite (seg_split m'' d (d + (pw + k - p)) pr) by (unfold d; lia). f_equal.
          { apply seg_shift. intros x Hx. rewrite Hc by lia. now apply Hl. }
          { assert (E : d + (pw + k - p) = q) by (unfold d; lia). rewrite E. apply seg_ext. intros i Hi.
            rewrite Hf'' by lia. apply Hr. lia. }
        * intros x Hx. rewrite Hf'' by lia. apply Hf. lia.
  Qed.

  (** merging both halves into the workspace: 731-754, 1083-1099 *)
  Lemma merge_out_ok (left_first : T -> T -> prog T bool) pl pm pr' pr pw m (Q : bool -> (Z -> T) -> Prop) :
    pl <= pm -> pm <= pr' <= pr -> pr - pl < Z.of_nat F ->
    (pw + (pr - pl) <= pl \/ pr <= pw) ->
    (forall l r, In l (seg m pl pm) -> In r (seg m pm pr') ->
       forall (Q' : bool -> (Z -> T) -> Prop) m', Q' (negb (lt r l)) m' -> wp ok (left_first l r) Q' m') ->
    (forall x, pw <= x < pw + (pr - pl) -> ok x = true) -> (forall x, pl <= x < pr -> ok x = true) ->
    (forall m' C, mrg lt (seg m pl pm) (seg m pm pr') C -> seg m' pw (pw + (pr - pl)) = C ++ seg m pr' pr ->
        same_out m m' pw (pw + (pr - pl)) -> Q true m') ->
    wp ok (let! (p, q, d) := merge_loop F left_first pl pm pm pr' pw in
           let! d := copy_rest F p pm d in
           let! _ := copy_rest F q pr d in
           Ret true) Q m.
  Proof.
    intros H1 H2 HF Hdis Hlf Hok1 Hok2 HQ.
    apply merge_loop_ok; try assumption; try lia.
    - intros x Hx. apply Hok2. lia.
    - intros x Hx. apply Hok2. lia.
    - intros x Hx. apply Hok1. lia.
    - intros p q m' Hp Hq Hend Hf Hl Hr HM.
      set (d := pw + (p - pl) + (q - pm)) in *.
      apply copy_rest_ok; try lia.
      + intros x Hx. split; [apply Hok2; lia|apply Hok1; unfold d; lia].
      + intros m2 Hc2 Hf2. rewrite Z.max_r by lia.
        apply copy_rest_ok; try lia.
        * intros x Hx. split; [apply Hok2; lia|apply Hok1; unfold d; lia].
        * intros m3 Hc3 Hf3. apply wp_ret.
          apply HQ with (C := seg m' pw d ++ seg m p pm ++ seg m q pr'); [exact HM| |].
          -- rewrite (seg_split m3 pw d) by (unfold d; lia). rewrite <- !app_assoc. f_equal.
             { apply seg_ext. intros i Hi. rewrite Hf3 by (unfold d in *; lia). apply Hf2. lia. }
             rewrite (seg_split m3 d (d + (pm - p))) by (unfold d; lia). f_equal.
             { rewrite <- (seg_shift m3 m p pm d); [reflexivity|]. intros x Hx. rewrite Hf3 by lia. rewrite Hc2 by lia. apply Hf. unfold d. lia. }
             rewrite <- (seg_split m q pr' pr) by lia.
             rewrite <- (seg_shift m3 m q pr (d + (pm - p))); [f_equal; unfold d; lia|].
             intros x Hx. rewrite Hc3 by lia. rewrite Hf2 by (unfold d; lia). apply Hf. unfold d. lia.
          -- intros x Hx. rewrite Hf3 by (unfold d; lia). rewrite Hf2 by (unfold d; lia). apply Hf. unfold d. lia.
  Qed.
End MergeProgs.
