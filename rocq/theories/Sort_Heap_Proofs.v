(** Sort_Heap_Proofs.v - heapsort_ sorts. *)
From Verif Require Import Base Sort_Model Sort_Base_Proofs Sort_Insert_Proofs.

Section Heap.
  Context {T : Type}.
  Variables (F : nat) (LT : T -> T -> option bool) (lt : T -> T -> bool) (P : T -> Prop).
  Hypothesis LT_ok : forall x y, P x -> P y -> LT x y = Some (lt x y).
  Hypothesis SW : strict_weak lt.
  Variable ok : Z -> bool.

  (** max-heap with items 1..n at addresses a+1..a+n, from parent l on *)
  Definition child (c p : Z) : Prop := c = 2 * p \/ c = 2 * p + 1.
  Definition heapP (a : Z) (v : Z -> T) (l n : Z) : Prop :=
    forall p c, l <= p -> child c p -> c <= n -> le lt (v (a + c)) (v (a + p)).

  Lemma sift_ok a n tmp l m0 (Q : Z -> (Z -> T) -> Prop) :
    1 <= l <= n ->
    (forall x, a + l <= x < a + n + 1 -> ok x = true) ->
    (forall x, a + l <= x < a + n + 1 -> P (zupd m0 (a + l) tmp x)) ->
    n < Z.of_nat F ->
    heapP a (zupd m0 (a + l) tmp) (l + 1) n ->
    (forall i m, l <= i <= n -> heapP a (zupd m (a + i) tmp) l n ->
        Permutation (seg (zupd m (a + i) tmp) (a + l) (a + n + 1)) (seg (zupd m0 (a + l) tmp) (a + l) (a + n + 1)) ->
        same_out m0 m (a + l) (a + n + 1) -> Q i m) ->
    wp ok (sift F LT a n tmp l (l * 2)) Q m0.
  Proof.
    intros Hl Hok HP HF Hheap HQ. unfold sift.
    apply wp_loop with (Inv := fun ij m => let '(i, j) := ij in
        j = 2 * i /\ l <= i <= n /\
        Permutation (seg (zupd m (a + i) tmp) (a + l) (a + n + 1)) (seg (zupd m0 (a + l) tmp) (a + l) (a + n + 1)) /\
        same_out m0 m (a + l) (a + n + 1) /\
        (forall p c, l <= p -> p <> i -> child c p -> c <= n -> le lt (zupd m (a + i) tmp (a + c)) (zupd m (a + i) tmp (a + p))) /\
        (forall p c, l <= p -> child i p -> child c i -> c <= n -> le lt (zupd m (a + i) tmp (a + c)) (zupd m (a + i) tmp (a + p))))
      (meas := fun ij => n - fst ij).
    - intros [i j] m (-> & Hi & Hp & Hf & H & G). cbn [fst].
      set (v := zupd m (a + i) tmp) in *.
      assert (HPv : forall x, a + l <= x < a + n + 1 -> P (v x)) by (eapply seg_perm_all; [exact Hp|exact HP]).
      assert (Hptmp : P tmp) by (specialize (HPv (a + i) ltac:(lia)); unfold v in HPv; now rewrite zupd_eq in HPv).
      assert (Hmv : forall c, c <> i -> m (a + c) = v (a + c)) by (intros c Hc; unfold v; now rewrite zupd_neq by lia).
      destruct (2 * i <=? n) eqn:Ej.
      2:{ apply wp_ret. apply HQ; [lia| |exact Hp|exact Hf].
          intros p c Hpl Hc Hcn. destruct (Z.eq_dec p i) as [->|Hn]; [unfold child in Hc; lia|]. now apply H. }
      assert (Hstep : forall j', child j' i -> j' <= n -> (forall c, child c i -> c <= n -> le lt (v (a + c)) (v (a + j'))) ->
        wp ok (let! y := load (a + j') in let! b := lt_ LT tmp y in
               if b then store (a + i) y ;; Ret (inl (j', j' + j')) else Ret (inr i))
          (fun r m' => match r with
             | inl s' => (let '(i0, j0) := s' in j0 = 2 * i0 /\ l <= i0 <= n /\
                Permutation (seg (zupd m' (a + i0) tmp) (a + l) (a + n + 1)) (seg (zupd m0 (a + l) tmp) (a + l) (a + n + 1)) /\
                same_out m0 m' (a + l) (a + n + 1) /\
                (forall p c, l <= p -> p <> i0 -> child c p -> c <= n -> le lt (zupd m' (a + i0) tmp (a + c)) (zupd m' (a + i0) tmp (a + p))) /\
                (forall p c, l <= p -> child i0 p -> child c i0 -> c <= n -> le lt (zupd m' (a + i0) tmp (a + c)) (zupd m' (a + i0) tmp (a + p)))) /\
                 n - fst s' < n - i
             | inr v0 => Q v0 m' end) m).
      { intros j' Hc' Hj' Hmax.
        assert (Hne : j' <> i) by (unfold child in Hc'; lia).
        apply wp_rd; [apply Hok; unfold child in Hc'; lia|]. rewrite (Hmv j' Hne).
        eapply wp_ask; [apply LT_ok; [exact Hptmp|apply HPv; unfold child in Hc'; lia]|].
        destruct (lt tmp (v (a + j'))) eqn:E.
        - apply wp_st; [apply Hok; lia|]. apply wp_ret. cbn [fst].
          split; [|unfold child in Hc'; lia]. split; [lia|]. split; [unfold child in Hc'; lia|].
          rewrite <- (Hmv j' Hne).
          assert (Hv1 : forall x, zupd (zupd m (a + i) (m (a + j'))) (a + j') tmp x = swapm v (a + i) (a + j') x).
          { intros x. unfold v. apply hole_move. lia. }
          assert (Vi : swapm v (a + i) (a + j') (a + i) = v (a + j')) by apply swapm_l.
          assert (Vj : swapm v (a + i) (a + j') (a + j') = tmp) by (rewrite swapm_r; unfold v; apply zupd_eq).
          assert (Vo : forall c, c <> i -> c <> j' -> swapm v (a + i) (a + j') (a + c) = v (a + c)) by (intros c ? ?; apply swapm_o; lia).
          split; [|split; [|split]].
          + rewrite (seg_ext _ _ _ _ (fun x _ => Hv1 x)).
            eapply Permutation_trans; [|exact Hp]. apply seg_swap; unfold child in Hc'; lia.
          + intros x Hx. rewrite zupd_neq by lia. now apply Hf.
          + intros p c Hpl Hpj Hc Hcn. rewrite !Hv1.
            destruct (Z.eq_dec p i) as [->|Hpi].
            * rewrite Vi. destruct (Z.eq_dec c j') as [->|Hcj].
              -- rewrite Vj. now apply lt_le.
              -- rewrite Vo by (unfold child in Hc; lia). now apply Hmax.
            * rewrite (Vo p) by assumption. destruct (Z.eq_dec c i) as [->|Hci].
              -- rewrite Vi. apply G; assumption.
              -- rewrite Vo; [apply H; assumption|assumption|unfold child in Hc, Hc'; lia].
          + intros p c Hpl Hpj Hc Hcn. rewrite !Hv1.
            assert (p = i) by (unfold child in Hpj, Hc'; lia). subst p. rewrite Vi.
            rewrite Vo by (unfold child in Hc, Hc'; lia). apply H; [unfold child in Hc'; lia|assumption|assumption|assumption].
        - apply wp_ret. apply HQ; [lia| |exact Hp|exact Hf].
          intros p c Hpl Hc Hcn. fold v. destruct (Z.eq_dec p i) as [->|Hn]; [|now apply H].
          assert (Ei : v (a + i) = tmp) by (unfold v; apply zupd_eq). rewrite Ei.
          apply (le_trans lt SW _ (v (a + j'))); [now apply Hmax|exact E]. }
      destruct (2 * i <? n) eqn:Ejn.
      + apply wp_bind. apply wp_rd; [apply Hok; lia|]. apply wp_rd; [apply Hok; lia|].
        rewrite !Hmv by lia.
        eapply wp_ask; [apply LT_ok; apply HPv; lia|]. apply wp_ret.
        destruct (lt (v (a + 2 * i)) (v (a + (2 * i + 1)))) eqn:E; apply Hstep; try (unfold child; lia).
        * intros c Hc Hcn. destruct Hc as [-> | ->]; [now apply lt_le|now apply le_refl].
        * intros c Hc Hcn. destruct Hc as [-> | ->]; [now apply le_refl|exact E].
      + change (wp ok (let! j' := Ret (2 * i) in let! y := load (a + j') in let! b := lt_ LT tmp y in
               if b then store (a + i) y ;; Ret (inl (j', j' + j')) else Ret (inr i)) (fun r m' => match r with
             | inl s' => (let '(i0, j0) := s' in j0 = 2 * i0 /\ l <= i0 <= n /\
                Permutation (seg (zupd m' (a + i0) tmp) (a + l) (a + n + 1)) (seg (zupd m0 (a + l) tmp) (a + l) (a + n + 1)) /\
                same_out m0 m' (a + l) (a + n + 1) /\
                (forall p c, l <= p -> p <> i0 -> child c p -> c <= n -> le lt (zupd m' (a + i0) tmp (a + c)) (zupd m' (a + i0) tmp (a + p))) /\
                (forall p c, l <= p -> child i0 p -> child c i0 -> c <= n -> le lt (zupd m' (a + i0) tmp (a + c)) (zupd m' (a + i0) tmp (a + p)))) /\
                 n - fst s' < n - i
             | inr v0 => Q v0 m' end) m).
        apply Hstep; try (unfold child; lia).
        intros c Hc Hcn. assert (c = 2 * i) by (unfold child in Hc; lia). subst c. now apply le_refl.
    - intros [i j] m (-> & Hi & _). cbn. lia.
    - split; [lia|]. split; [lia|]. split; [apply Permutation_refl|]. split; [intros x _; reflexivity|]. split.
      + intros p c Hpl Hpn Hc Hcn. apply Hheap; [lia|assumption|assumption].
      + intros p c Hpl Hc Hc' Hcn. unfold child in Hc. lia.
    - cbn. lia.
  Qed.

  Lemma heap_top a v n : heapP a v 1 n -> forall k, 1 <= k <= n -> le lt (v (a + k)) (v (a + 1)).
  Proof.
    intros H k Hk. assert (G : forall b, 0 <= b -> forall k, 1 <= k <= n -> k <= b -> le lt (v (a + k)) (v (a + 1))).
    { intros b Hb. pattern b. apply natlike_ind; [| |exact Hb].
      - intros k' H1 H2. lia.
      - intros b' Hb' IH k' H1 H2. destruct (Z.eq_dec k' 1) as [->|Hn]; [now apply le_refl|].
        apply (le_trans lt SW _ (v (a + k' / 2))).
        + apply H; [lia| |lia]. unfold child. lia.
        + apply IH; lia. }
    apply (G k); lia.
  Qed.

  Definition sort_post (m0 : Z -> T) lo hi m : Prop :=
    Permutation (seg m lo hi) (seg m0 lo hi) /\ sorted_seg lt m lo hi /\ same_out m0 m lo hi.

  Lemma zupd_self (m : Z -> T) k x : zupd m k (m k) x = m x.
  Proof. unfold zupd. destruct (Z.eqb_spec x k); [now subst|reflexivity]. Qed.

  Lemma heapP_ext a v v' l n : (forall x, v x = v' x) -> heapP a v l n -> heapP a v' l n.
  Proof. intros E H p c H1 H2 H3. rewrite <- !E. now apply H. Qed.

  Lemma heapsort_ok start n m0 (Q : unit -> (Z -> T) -> Prop) :
    0 <= n ->
    (forall x, start <= x < start + n -> ok x = true) ->
    (forall x, start <= x < start + n -> P (m0 x)) ->
    n < Z.of_nat F ->
    (forall m, sort_post m0 start (start + n) m -> Q tt m) ->
    wp ok (heapsort_ F LT start n) Q m0.
  Proof.
    intros Hn Hok HP HF HQ. unfold heapsort_. set (a := start - 1).
    replace (start + n) with (a + n + 1) in * by (unfold a; lia). replace start with (a + 1) in * by (unfold a; lia).
    clearbody a. clear start.
    apply wp_loop_b with (Inv := fun l m => 0 <= l <= n / 2 /\ heapP a m (l + 1) n /\
          Permutation (seg m (a + 1) (a + n + 1)) (seg m0 (a + 1) (a + n + 1)) /\ same_out m0 m (a + 1) (a + n + 1))
      (meas := fun l => l)
      (P := fun _ m => heapP a m 1 n /\
          Permutation (seg m (a + 1) (a + n + 1)) (seg m0 (a + 1) (a + n + 1)) /\ same_out m0 m (a + 1) (a + n + 1)).
    - intros l m (Hl & Hh & Hp & Hf). destruct (0 <? l) eqn:El.
      2:{ apply wp_ret. replace l with 0 in * by lia. auto. }
      apply wp_rd; [apply Hok; lia|]. apply wp_bind.
      assert (HPm : forall x, a + 1 <= x < a + n + 1 -> P (m x)) by (eapply seg_perm_all; eauto).
      apply sift_ok; try lia.
      + intros x Hx. apply Hok. lia.
      + intros x Hx. rewrite zupd_self. apply HPm. lia.
      + eapply heapP_ext; [|exact Hh]. intros x. symmetry. apply zupd_self.
      + intros i m' Hi Hh' Hp' Hf'.
        apply wp_st; [apply Hok; lia|]. apply wp_ret. split; [|lia].
        split; [lia|]. split; [replace (l - 1 + 1) with l by lia; exact Hh'|].
        rewrite (seg_ext (zupd m (a + l) (m (a + l))) m) in Hp' by (intros; apply zupd_self).
        split.
        * eapply Permutation_trans; [|exact Hp]. eapply seg_perm_widen; [| | | |exact Hp']; try lia.
          intros x Hx. rewrite zupd_neq by lia. apply Hf'. exact Hx.
        * intros x Hx. rewrite zupd_neq by lia. rewrite Hf' by lia. now apply Hf.
    - intros l m (Hl & _). lia.
    - split; [lia|]. split; [|split; [apply Permutation_refl|intros x _; reflexivity]].
      intros p c Hp Hc Hcn. unfold child in Hc. lia.
    - lia.
    - intros _ m (Hh & Hp & Hf).
      apply wp_loop with (Inv := fun k m => 0 <= k <= n /\ (1 <= n -> 1 <= k) /\ heapP a m 1 k /\
          (forall i j, 1 <= i < j -> k < j <= n -> le lt (m (a + i)) (m (a + j))) /\
          Permutation (seg m (a + 1) (a + n + 1)) (seg m0 (a + 1) (a + n + 1)) /\ same_out m0 m (a + 1) (a + n + 1))
        (meas := fun k => k).
      + clear m Hh Hp Hf. intros k m (Hk & Hk1 & Hh & Hs & Hp & Hf).
        destruct (1 <? k) eqn:Ek.
        2:{ apply wp_ret. apply HQ. split; [exact Hp|]. split; [|exact Hf].
            intros i j Hi Hj. replace i with (a + (i - a)) by lia. replace j with (a + (j - a)) by lia.
            apply Hs; lia. }
        assert (HPm : forall x, a + 1 <= x < a + n + 1 -> P (m x)) by (eapply seg_perm_all; eauto).
        apply wp_rd; [apply Hok; lia|]. apply wp_rd; [apply Hok; lia|]. apply wp_st; [apply Hok; lia|].
        apply wp_bind. set (tmp := m (a + k)). set (m1 := zupd m (a + k) (m (a + 1))).
        (* view: items 1 and k exchanged *)
        assert (Hv : forall x, zupd m1 (a + 1) tmp x = swapm m (a + 1) (a + k) x).
        { intros x. unfold m1, tmp, swapm, tr, zupd.
          destruct (Z.eqb_spec x (a + 1)); [subst; reflexivity|]. destruct (Z.eqb_spec x (a + k)); reflexivity. }
        replace 2 with (1 * 2) by lia.
        apply sift_ok; try lia.
        * intros x Hx. apply Hok. lia.
        * intros x Hx. rewrite Hv. unfold swapm, tr.
          destruct (x =? a + 1); [apply HPm; lia|]. destruct (x =? a + k); apply HPm; lia.
        * intros p c Hp1 Hc Hcn. rewrite !Hv. unfold child in Hc.
          rewrite !swapm_o by lia. apply Hh; [lia|exact Hc|lia].
        * intros i m' Hi Hh' Hp' Hf'.
          apply wp_st; [apply Hok; lia|]. apply wp_ret. split; [|lia].
          set (m2 := zupd m' (a + i) tmp) in *.
          assert (Hf2 : forall x, ~ (a + 1 <= x < a + (k - 1) + 1) -> m2 x = m1 x).
          { intros x Hx. unfold m2. rewrite zupd_neq by lia. now apply Hf'. }
          assert (Hp2 : Permutation (seg m2 (a + 1) (a + n + 1)) (seg m (a + 1) (a + n + 1))).
          { eapply Permutation_trans with (seg (zupd m1 (a + 1) tmp) (a + 1) (a + n + 1)).
            - eapply seg_perm_widen; [| | | |exact Hp']; try lia.
              intros x Hx. rewrite Hf2 by exact Hx. now rewrite zupd_neq by lia.
            - rewrite (seg_ext _ _ _ _ (fun x _ => Hv x)). apply seg_swap; lia. }
          assert (Hk2 : m2 (a + k) = m (a + 1)).
          { rewrite Hf2 by lia. unfold m1. now rewrite zupd_eq. }
          assert (Ho2 : forall j, k < j -> m2 (a + j) = m (a + j)).
          { intros j Hj. rewrite Hf2 by lia. unfold m1. now rewrite zupd_neq by lia. }
          assert (Hin2 : forall i', 1 <= i' < k -> exists i0, 1 <= i0 <= k /\ m2 (a + i') = m (a + i0)).
          { intros i' Hi'.
            assert (Hin : In (m2 (a + i')) (seg (zupd m1 (a + 1) tmp) (a + 1) (a + (k - 1) + 1))).
            { eapply Permutation_in; [exact Hp'|]. apply seg_In. exists (a + i'). split; [lia|reflexivity]. }
            apply seg_In in Hin. destruct Hin as (x & Hx & Ex). rewrite Hv in Ex. unfold swapm, tr in Ex.
            destruct (Z.eqb_spec x (a + 1)).
            - exists k. split; [lia|now symmetry].
            - destruct (Z.eqb_spec x (a + k)); [lia|]. exists (x - a). split; [lia|].
              rewrite <- Ex. f_equal. lia. }
          split; [lia|]. split; [lia|]. split; [exact Hh'|]. split; [|split].
          -- intros i' j Hij Hj. destruct (Z.eq_dec j k) as [->|Hjk].
             ++ rewrite Hk2. destruct (Hin2 i' ltac:(lia)) as (i0 & Hi0 & ->). apply (heap_top a m k Hh). lia.
             ++ rewrite (Ho2 j) by lia. destruct (Z_lt_le_dec i' k) as [Hik|Hik].
                ** destruct (Hin2 i' ltac:(lia)) as (i0 & Hi0 & ->). apply Hs; lia.
                ** destruct (Z.eq_dec i' k) as [->|Hnk]; [rewrite Hk2; apply Hs; lia|].
                   rewrite Ho2 by lia. apply Hs; lia.
          -- eapply Permutation_trans; [exact Hp2|exact Hp].
          -- intros x Hx. rewrite Hf2 by lia. unfold m1. rewrite zupd_neq by lia. now apply Hf.
      + intros k m' (Hk & _). lia.
      + split; [lia|]. split; [lia|]. split; [exact Hh|]. split; [intros; lia|]. split; assumption.
      + lia.
  Qed.
End Heap.
