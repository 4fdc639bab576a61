(** Ring_Proofs.v - histories of calls: late workers of earlier calls do not disturb later ones. *)
From Verif Require Import Base Threads_Model Threads_Proofs Threads_Props Ring_Model.

Lemma inv_with_mem {V} n T zz (s : state V) d b m : Inv n T zz s d b -> Inv n T zz (with_mem s m) d b.
Proof. intros I. destruct I. constructor; assumption. Qed.

Lemma returned_step_mem {V} (u : ufunc V) n T zz (HT : 0 <= T) (s : state V) d b c :
  Inv n T zz s d b -> pcs s 0 = Returned ->
  mem (step u c s) = mem s /\ log (step u c s) = log s /\ pcs (step u c s) 0 = Returned /\
  exists d' b', Inv n T zz (step u c s) d' b'.
Proof.
  intros I Hr. destruct (step_log_mem u c s) as (l & Hl & Hm).
  destruct (step_inv u n T zz HT c s d b I) as (d' & b' & I').
  pose proof (step_returned u 0 s c Hr) as Hr'.
  assert (l = []) as ->.
  { destruct l as [|e l]; [reflexivity|exfalso].
    pose proof (inv_returned_log n T zz s d b 0 e I Hr) as O1.
    pose proof (inv_returned_log n T zz _ d' b' 0 e I' Hr') as O2.
    rewrite Hl, occ_app, O1, occ_cons, Z.eqb_refl in O2. pose proof (occ_nonneg e l). lia. }
  rewrite app_nil_r in Hl. simpl in Hm. repeat split; [exact Hm|exact Hl|exact Hr'|eauto].
Qed.

Lemma seq_loop_ext {V} (u : ufunc V) n m m' : (forall a, m a = m' a) -> forall a, seq_loop u n m a = seq_loop u n m' a.
Proof.
  unfold seq_loop. generalize (zrange 0 n) as l. intros l. revert m m'.
  induction l as [|e l IH]; intros m m' H a; simpl; [apply H|]. apply IH. intros a'. unfold zupd.
  destruct (a' =? _); [rewrite !H; reflexivity|apply H].
Qed.

(** calls performed one after the other by the unthreaded loop; newest first *)
Fixpoint after_calls {V} (cs : list (call V)) (m : Z -> V) : Z -> V :=
  match cs with [] => m | c :: r => seq_loop (c_u c) (c_n c) (after_calls r m) end.

Definition call_ok {V} (c : call V) : Prop := 0 <= c_n c /\ 0 <= c_T c /\ no_cross_overlap (c_u c) (c_n c).

Definition finished {V} (cs : call V * state V) : Prop :=
  let (c, s) := cs in call_ok c /\ pcs s 0 = Returned /\ exists d b, Inv (c_n c) (c_T c) (c_zz c) s d b.

Definition HInv {V} (m0 : Z -> V) (h : hstate V) : Prop :=
  match hcalls h with
  | [] => hmem h = m0
  | (c, s) :: r =>
      call_ok c /\ Forall finished r /\
      exists mprev sched, with_mem s (hmem h) = run (c_u c) (start (c_n c) (c_T c) (c_zz c) mprev) sched /\
        (forall a, mprev a = after_calls (map fst r) m0 a)
  end.

Lemma with_mem_twice {V} (s : state V) m m' : with_mem (with_mem s m) m' = with_mem s m'.
Proof. reflexivity. Qed.
Lemma with_mem_self {V} (s : state V) : with_mem s (mem s) = s.
Proof. destruct s. reflexivity. Qed.

Lemma step_nth_finished {V} j core (m : Z -> V) l : Forall finished l ->
  fst (step_nth j core m l) = m /\ Forall finished (snd (step_nth j core m l)) /\
  map fst (snd (step_nth j core m l)) = map fst l.
Proof.
  revert j. induction l as [|[c s] r IH]; intros j Hf; simpl; [auto|].
  apply Forall_cons_iff in Hf. destruct Hf as [H1 H2]. destruct j as [|j]; simpl.
  - destruct H1 as (Hok & Hr & d & b & I). pose proof (proj1 (proj2 Hok)) as HT.
    destruct (returned_step_mem (c_u c) _ _ _ HT (with_mem s m) d b core (inv_with_mem _ _ _ _ _ _ m I) Hr)
      as (E1 & E2 & E3 & I').
    split; [exact E1|]. split; [|reflexivity]. constructor; [|exact H2]. repeat split; try apply Hok; assumption.
  - destruct (step_nth j core m r) as [m' r'] eqn:E. specialize (IH j H2). rewrite E in IH. simpl in IH.
    destruct IH as (E1 & E2 & E3). simpl. split; [exact E1|]. split; [constructor; assumption|]. f_equal. exact E3.
Qed.

Definition event_ok {V} (e : hevent V) : Prop := match e with EStart c => call_ok c | _ => True end.

Lemma returned_mem {V} (c : call V) mprev sched a : call_ok c ->
  pcs (run (c_u c) (start (c_n c) (c_T c) (c_zz c) mprev) sched) 0 = Returned ->
  mem (run (c_u c) (start (c_n c) (c_T c) (c_zz c) mprev) sched) a = seq_loop (c_u c) (c_n c) mprev a.
Proof.
  intros (H1 & H2 & H3) Hr.
  destruct (C09_threading_transparent (c_u c) (c_n c) (c_T c) (c_zz c) mprev sched H1 H2 H3 Hr) as (_ & _ & H). apply H.
Qed.

Lemma hstep_inv {V} (m0 : Z -> V) h e : event_ok e -> HInv m0 h -> HInv m0 (hstep h e).
Proof.
  intros Hok I. destruct e as [c|j core]; simpl.
  - destruct (hcalls h) as [|[c1 s1] r] eqn:E.
    + unfold HInv in *. rewrite E in I. simpl. rewrite I. split; [exact Hok|]. split; [constructor|].
      exists m0, []. split; [reflexivity|intros; reflexivity].
    + destruct (is_ret (pcs s1 0)) eqn:Er; [|exact I].
      assert (Hr : pcs s1 0 = Returned) by (destruct (pcs s1 0); try discriminate; reflexivity).
      unfold HInv in *. rewrite E in I. destruct I as (Hc1 & Hf & mprev & sched & Hs & Hm). simpl.
      split; [exact Hok|]. split.
      * constructor; [|exact Hf]. split; [exact Hc1|]. split; [exact Hr|].
        destruct (reach_inv (c_u c1) (c_n c1) (c_T c1) (c_zz c1) (proj1 (proj2 Hc1)) mprev sched) as (d & b & I).
        rewrite <- Hs in I. apply (inv_with_mem _ _ _ _ _ _ (mem s1)) in I. rewrite with_mem_twice, with_mem_self in I. eauto.
      * exists (hmem h), []. split; [reflexivity|]. intros a. simpl.
        change (hmem h) with (mem (with_mem s1 (hmem h))). rewrite Hs. rewrite returned_mem; [|exact Hc1|].
        -- apply seq_loop_ext. exact Hm.
        -- rewrite <- Hs. exact Hr.
  - unfold HInv in *. destruct (hcalls h) as [|[c1 s1] r] eqn:E.
    + simpl. exact I.
    + destruct I as (Hc1 & Hf & mprev & sched & Hs & Hm). destruct j as [|j]; simpl.
      * split; [exact Hc1|]. split; [exact Hf|]. exists mprev, (sched ++ [core]). split; [|exact Hm].
        rewrite with_mem_self. rewrite Hs. unfold run. rewrite fold_left_app. reflexivity.
      * destruct (step_nth j core (hmem h) r) as [m' r'] eqn:Es.
        pose proof (step_nth_finished j core (hmem h) r Hf) as (E1 & E2 & E3). rewrite Es in E1, E2, E3. simpl in *.
        subst m'. split; [exact Hc1|]. split; [exact E2|]. exists mprev, sched. split; [exact Hs|]. rewrite E3. exact Hm.
Qed.

Lemma hrun_inv {V} (m0 : Z -> V) es h : Forall event_ok es -> HInv m0 h -> HInv m0 (hrun h es).
Proof.
  revert h. induction es as [|e es IH]; intros h Hes I; simpl; [exact I|].
  apply Forall_cons_iff in Hes. destruct Hes. apply IH; [assumption|]. apply hstep_inv; assumption.
Qed.

Lemma hrun_newest {V} (c : call V) sched s r : 
  hrun (mkH (mem s) ((c, s) :: r)) (map (EStep 0) sched) =
  mkH (mem (run (c_u c) s sched)) ((c, run (c_u c) s sched) :: r).
Proof.
  revert s. induction sched as [|x sched IH]; intros s; simpl; [reflexivity|].
  rewrite with_mem_self. apply IH.
Qed.
