(** Desc_Props.v - C86: after initialize(), NumPy's sort, argsort, argmax, argmin and arange functions of every dtype still reach their own function. *)
From Verif Require Import Base Kernel_Model Compare_Model Hooks_Model Dispatch_Model Dispatch_Props Desc_Model.
Local Open Scope Z_scope.

(** NumPy has a sort and an argsort of every kind for the dtypes 0 to 12 (numpy/core/src/multiarray/arraytypes.c.src) *)
Definition sorts_present (has : Z -> slot -> bool) : Prop :=
  forall d k, machine d <> None -> 0 <= k <= 2 -> has d (SortSlot k) = true /\ has d (ArgSortSlot k) = true.
(** initialize() having run the loop [n] times over the dtypes, starting from NumPy as it is *)
Fixpoint hooked_times (n : nat) (has : Z -> slot -> bool) : dstate :=
  match n with O => numpy_descrs has | S n => hook_descrs hooked_dtypes (hooked_times n has) end.
(** [o] is right for function [s] of dtype [d]: NumPy's own function of the same kind for this dtype or for one with the same machine type, or, for a
    sort or an argsort that pnumpy takes, pnumpy's for the same kind and that machine type *)
Definition accelerable (s : slot) : Prop := match s with SortSlot _ | ArgSortSlot _ | FillSlot => True | ArgMaxSlot | ArgMinSlot => False end.
Definition right_function (has : Z -> slot -> bool) (takes : slot -> Z -> bool) (d : Z) (s : slot) (o : came_to) : Prop :=
  match o with
  | NumpyRuns d' s' => s' = s /\ has d' s = true /\ (d' = d \/ (machine d <> None /\ machine d' = machine d))
  | PnumpyRuns s' a => s' = s /\ accelerable s /\ takes s a = true /\ machine d <> None /\ cty_of a = machine d
  | NullCall | MinusOne => False
  end.

(** ---------- proofs ---------- *)
Lemma slot_eqb_eq s s' : slot_eqb s s' = true <-> s = s'.
Proof. destruct s, s'; cbn [slot_eqb]; split; intros H; try discriminate; try reflexivity; try (apply Z.eqb_eq in H; congruence); injection H as ->; apply Z.eqb_refl. Qed.
Lemma machine_cty d : In d hooked_dtypes -> machine d <> None /\ cty_of (dtype_to_atop d) = machine d.
Proof. intros H. cbn in H. repeat (destruct H as [<- | H]; [split; [discriminate|reflexivity]|]). destruct H. Qed.
Lemma machine_hooked d : machine d <> None -> In d hooked_dtypes.
Proof. destruct (machine d) as [t|] eqn:E; [|congruence]. intros _. exact (machine_dtypes d t E). Qed.
Lemma slots_kind s : In s slots -> is_sort s = true -> exists k, 0 <= k <= 2 /\ (s = SortSlot k \/ s = ArgSortSlot k).
Proof. intros H. cbn in H. repeat (destruct H as [<- | H]; [cbn; first [discriminate|intros _; eexists; split; [|eauto]; lia]|]). destruct H. Qed.

Definition good (has : Z -> slot -> bool) (st : dstate) : Prop := forall d s,
  descr st d s = (if has d s then Some (Own d s) else None) \/
  (In d hooked_dtypes /\ has d s = true /\ descr st d s = Some (DStub s (dtype_to_atop d)) /\
   exists d', In d' hooked_dtypes /\ has d' s = true /\ dtype_to_atop d' = dtype_to_atop d /\ old st s (dtype_to_atop d) = Some (Own d' s)).
Lemma good_numpy has : good has (numpy_descrs has).
Proof. intros d s. now left. Qed.
Lemma good_slot has d0 s0 st : sorts_present has -> In d0 hooked_dtypes -> In s0 slots -> good has st -> good has (hook_slot d0 s0 st).
Proof.
  intros P Hd Hs G. unfold hook_slot. destruct (G d0 s0) as [E|(_ & _ & E & _)].
  2:{ rewrite E. cbn [is_stub dfn_eqb]. rewrite (proj2 (slot_eqb_eq s0 s0) eq_refl), Z.eqb_refl. cbn [negb andb]. rewrite andb_false_r. exact G. }
  rewrite E. destruct (has d0 s0) eqn:Hh; cbn [is_stub dfn_eqb negb andb].
  2:{ destruct (is_sort s0) eqn:Q; [|exact G]. destruct (slots_kind s0 Hs Q) as (k & Hk & [-> | ->]); destruct (P d0 k (proj1 (machine_cty d0 Hd)) Hk); congruence. }
  rewrite orb_true_r. cbn [andb]. intros d s. cbn [set_descr set_old descr old].
  destruct ((d =? d0) && slot_eqb s s0) eqn:B.
  - apply andb_true_iff in B. destruct B as [B1 B2]. apply Z.eqb_eq in B1. apply slot_eqb_eq in B2. subst d s. right. split; [exact Hd|]. split; [exact Hh|]. split; [reflexivity|].
    exists d0. rewrite (proj2 (slot_eqb_eq s0 s0) eq_refl), Z.eqb_refl. cbn [andb]. auto.
  - destruct (G d s) as [E'|(H1 & H2 & H3 & d' & H4 & H5 & H6 & H7)]; [now left|]. right. split; [exact H1|]. split; [exact H2|]. split; [exact H3|].
    destruct (slot_eqb s s0 && (dtype_to_atop d =? dtype_to_atop d0)) eqn:C; [|exists d'; auto].
    apply andb_true_iff in C. destruct C as [C1 C2]. apply slot_eqb_eq in C1. apply Z.eqb_eq in C2. subst s. exists d0. auto.
Qed.
Lemma good_dtype has d0 st : sorts_present has -> In d0 hooked_dtypes -> good has st -> good has (hook_dtype d0 st).
Proof.
  intros P Hd. unfold hook_dtype. assert (A : forall l st, (forall s, In s l -> In s slots) -> good has st -> good has (fold_left (fun st s => hook_slot d0 s st) l st)).
  { induction l as [|s l IH]; intros st0 Hl G; cbn [fold_left]; [exact G|]. apply IH; [intros; apply Hl; now right|]. apply good_slot; try assumption. apply Hl. now left. }
  intros G. now apply A.
Qed.
Lemma good_descrs has : sorts_present has -> forall l st, (forall d, In d l -> In d hooked_dtypes) -> good has st -> good has (hook_descrs l st).
Proof.
  intros P. unfold hook_descrs. induction l as [|d l IH]; intros st Hl G; cbn [fold_left]; [exact G|]. apply IH; [intros; apply Hl; now right|].
  apply good_dtype; try assumption. apply Hl. now left.
Qed.
Lemma good_times has n : sorts_present has -> good has (hooked_times n has).
Proof. intros P. induction n as [|n IH]; [apply good_numpy|]. cbn [hooked_times]. now apply good_descrs. Qed.

(** C86.  Whatever functions this NumPy has, however often initialize() hooks them and whichever calls pnumpy answers itself: the call through
    any function pointer of any dtype comes to exactly one end, that function of that dtype (or of the other dtype of the same machine type); it never
    goes round in circles, reaches NULL or another kind or type.  Where NumPy has no function there still is none. *)
Theorem C86_own_function : forall has takes n d s, sorts_present has ->
  let st := hooked_times n has in
  if has d s
  then exists o, calls st takes (descr st d s) o /\ (forall o', calls st takes (descr st d s) o' -> o' = o) /\ right_function has takes d s o
  else descr st d s = None.
Proof.
  intros has takes n d s P st. pose proof (good_times has n P d s) as G. fold st in G. clearbody st. destruct G as [E|(H1 & H2 & H3 & d' & H4 & H5 & H6 & H7)].
  - rewrite E. destruct (has d s) eqn:H; [|reflexivity]. exists (NumpyRuns d s). split; [constructor|]. split; [intros o' C; now inversion C|]. cbn. auto.
  - rewrite H2, H3. destruct (machine_cty d H1) as [M1 M2]. destruct (machine_cty d' H4) as [M3 M4].
    destruct (may_take s && takes s (dtype_to_atop d)) eqn:T.
    + apply andb_true_iff in T. destruct T as [T1 T2]. exists (PnumpyRuns s (dtype_to_atop d)). split; [apply calls_takes; assumption|]. split.
      * intros o' C. inversion C as [| |s1 a1 Hs Ht|s1 a1 o1 Hp Hf Hc|a1 Ht Ha]; subst; [reflexivity|rewrite T1, T2 in Hp; discriminate|congruence].
      * cbn [right_function]. repeat split; try assumption. destruct s; cbn in *; congruence || exact Logic.I.
    + exists (NumpyRuns d' s). split.
      * apply calls_punts; [exact T|intros; congruence|]. rewrite H7. constructor.
      * split; [|cbn [right_function]; repeat split; try assumption; right; split; [exact M1|congruence]].
        intros o' C. inversion C as [| |s1 a1 Hs Ht|s1 a1 o1 Hp Hf Hc|a1 Ht Ha]; subst; [rewrite Hs, Ht in T; discriminate| |congruence].
        rewrite H7 in Hc. now inversion Hc.
Qed.
Print Assumptions C86_own_function.

(** C86.  np.argmax and np.argmin always run NumPy's own functions; so do np.sort, np.argsort and np.arange whenever pnumpy does not take the
    call (disabled, say). *)
Theorem C86_numpy_answers : forall has takes n d s, sorts_present has -> has d s = true ->
  (forall a, takes s a = false) \/ ~ accelerable s ->
  let st := hooked_times n has in
  exists d', calls st takes (descr st d s) (NumpyRuns d' s) /\ (forall o', calls st takes (descr st d s) o' -> o' = NumpyRuns d' s) /\
             has d' s = true /\ (d' = d \/ (machine d <> None /\ machine d' = machine d)).
Proof.
  intros has takes n d s P H Q st. pose proof (C86_own_function has takes n d s P) as C. cbv zeta in C. fold st in C. rewrite H in C.
  destruct C as ([d' s'|s' a| |] & C1 & C2 & C3); cbn [right_function] in C3; try contradiction.
  - destruct C3 as (-> & C4 & C5). exists d'. auto.
  - destruct C3 as (-> & C4 & C5 & _). destruct Q as [Q|Q]; [rewrite Q in C5; discriminate|contradiction].
Qed.
Print Assumptions C86_numpy_answers.

(** C86.  Once initialize() has run, every kind of sort and argsort of the dtypes 0 to 12 is pnumpy's where pnumpy takes the call; no other dtype's functions
    are touched. *)
Lemma hooked_stays d0 s0 st d s : descr st d s = Some (DStub s (dtype_to_atop d)) -> descr (hook_slot d0 s0 st) d s = Some (DStub s (dtype_to_atop d)).
Proof.
  intros H. unfold hook_slot. destruct (_ && _); [|exact H]. cbn [set_descr set_old descr].
  destruct ((d =? d0) && slot_eqb s s0) eqn:B; [|exact H]. apply andb_true_iff in B. destruct B as [B1 B2]. apply Z.eqb_eq in B1. apply slot_eqb_eq in B2. now subst.
Qed.
Definition hookable (st : dstate) (d : Z) (s : slot) : Prop := is_sort s = true \/ descr st d s <> None.
Lemma hookable_stays d0 s0 st d s : hookable st d s -> hookable (hook_slot d0 s0 st) d s.
Proof.
  intros [H|H]; [now left|]. right. unfold hook_slot. destruct (_ && _); [|exact H]. cbn [set_descr set_old descr]. destruct (_ && _); [congruence|exact H].
Qed.
Lemma hook_slot_does d s st : hookable st d s -> descr (hook_slot d s st) d s = Some (DStub s (dtype_to_atop d)).
Proof.
  intros H. unfold hook_slot. replace (is_sort s || match descr st d s with Some _ => true | None => false end) with true
    by (destruct H as [H|H]; [now rewrite H|destruct (descr st d s); [now rewrite orb_true_r|congruence]]).
  cbn [andb]. destruct (is_stub (descr st d s) s (dtype_to_atop d)) eqn:E; cbn [negb].
  - unfold is_stub in E. destruct (descr st d s) as [[d' s'|s' a']|]; try discriminate. cbn [dfn_eqb] in E. apply andb_true_iff in E. destruct E as [E1 E2].
    apply slot_eqb_eq in E1. apply Z.eqb_eq in E2. now subst.
  - cbn [set_descr set_old descr]. now rewrite Z.eqb_refl, (proj2 (slot_eqb_eq s s) eq_refl).
Qed.
Lemma hook_all_slots d s : forall l st, hookable st d s -> In s l \/ descr st d s = Some (DStub s (dtype_to_atop d)) ->
  descr (fold_left (fun st s => hook_slot d s st) l st) d s = Some (DStub s (dtype_to_atop d)).
Proof.
  induction l as [|s0 l IH]; intros st K [H|H]; cbn [fold_left]; [destruct H|exact H| |].
  - destruct H as [-> | H]; [apply IH; [now apply hookable_stays|right; now apply hook_slot_does]|apply IH; [now apply hookable_stays|now left]].
  - apply IH; [now apply hookable_stays|]. right. now apply hooked_stays.
Qed.
Lemma hookable_dtype d0 d s : forall l st, hookable st d s -> hookable (fold_left (fun st s => hook_slot d0 s st) l st) d s.
Proof. induction l as [|s0 l IH]; intros st H; cbn [fold_left]; [exact H|]. apply IH. now apply hookable_stays. Qed.
Lemma hook_other_slots d0 d s : forall l st, descr st d s = Some (DStub s (dtype_to_atop d)) ->
  descr (fold_left (fun st s => hook_slot d0 s st) l st) d s = Some (DStub s (dtype_to_atop d)).
Proof. induction l as [|s0 l IH]; intros st H; cbn [fold_left]; [exact H|]. apply IH. now apply hooked_stays. Qed.
Lemma hook_all_dtypes d s : In s slots -> forall l st, hookable st d s -> In d l \/ descr st d s = Some (DStub s (dtype_to_atop d)) ->
  descr (hook_descrs l st) d s = Some (DStub s (dtype_to_atop d)).
Proof.
  intros Hin. unfold hook_descrs. induction l as [|d0 l IH]; intros st K [H|H]; cbn [fold_left]; [destruct H|exact H| |].
  - destruct H as [-> | H].
    + apply IH; [unfold hook_dtype; now apply hookable_dtype|]. right. unfold hook_dtype. apply hook_all_slots; [exact K|now left].
    + apply IH; [unfold hook_dtype; now apply hookable_dtype|now left].
  - apply IH; [unfold hook_dtype; now apply hookable_dtype|]. right. unfold hook_dtype. now apply hook_other_slots.
Qed.
Lemma hookable_times has n d s : is_sort s = true \/ (sorts_present has /\ has d s = true) -> hookable (hooked_times n has) d s.
Proof.
  intros [H|[P H]]; [now left|]. right. destruct (good_times has n P d s) as [E|(_ & _ & E & _)]; rewrite E; [rewrite H|]; congruence.
Qed.
Lemma dtype_code d a : In d hooked_dtypes -> cty_of a = machine d -> a = dtype_to_atop d.
Proof.
  intros Hd Ha. destruct (machine_cty d Hd) as [M1 M2]. rewrite <- M2 in Ha. cbn in Hd. unfold cty_of, ity_of in Ha.
  assert (Q : cty_of a = cty_of (dtype_to_atop d)) by exact Ha. clear Ha M1 M2.
  repeat (destruct Hd as [<- | Hd]; [unfold cty_of, ity_of in Q; cbn in Q; repeat (match type of Q with context [if ?x =? ?y then _ else _] => destruct (Z.eqb_spec x y) end; try discriminate; try assumption)|]); contradiction.
Qed.
Theorem C86_accelerated : forall has takes n d s, machine d <> None -> (exists k, 0 <= k <= 2 /\ (s = SortSlot k \/ s = ArgSortSlot k)) ->
  let st := hooked_times (S n) has in
  forall a, cty_of a = machine d -> takes s a = true -> calls st takes (descr st d s) (PnumpyRuns s a).
Proof.
  intros has takes n d s Hm Hk st a Ha Ht. apply machine_hooked in Hm as Hd.
  assert (Hs : In s slots) by (destruct Hk as (k & Hk & [-> | ->]); assert (k = 0 \/ k = 1 \/ k = 2) as [-> | [-> | ->]] by lia; cbn; auto 10).
  assert (K : is_sort s = true) by (destruct Hk as (k & _ & [-> | ->]); reflexivity).
  assert (E : descr st d s = Some (DStub s (dtype_to_atop d))) by (unfold st; cbn [hooked_times]; apply hook_all_dtypes; [exact Hs|now left|now left]).
  rewrite (dtype_code d a Hd Ha) in *. clearbody st. rewrite E. apply calls_takes; [destruct s; cbn in K |- *; congruence || reflexivity|exact Ht].
Qed.
Print Assumptions C86_accelerated.
(** C86.  So is np.arange of the dtypes 0 to 12 for which NumPy has a fill function. *)
Theorem C86_accelerated_arange : forall has takes n d, sorts_present has -> machine d <> None -> has d FillSlot = true ->
  let st := hooked_times (S n) has in
  forall a, cty_of a = machine d -> takes FillSlot a = true -> calls st takes (descr st d FillSlot) (PnumpyRuns FillSlot a).
Proof.
  intros has takes n d P Hm H st a Ha Ht. apply machine_hooked in Hm as Hd.
  assert (E : descr st d FillSlot = Some (DStub FillSlot (dtype_to_atop d)))
    by (unfold st; cbn [hooked_times]; apply hook_all_dtypes; [cbn; auto 10|apply hookable_times; auto|now left]).
  rewrite (dtype_code d a Hd Ha) in *. clearbody st. rewrite E. apply calls_takes; [reflexivity|exact Ht].
Qed.
Print Assumptions C86_accelerated_arange.
Lemma untouched_slot d0 s0 st d s : d <> d0 -> descr (hook_slot d0 s0 st) d s = descr st d s.
Proof. intros H. unfold hook_slot. destruct (_ && _); [|reflexivity]. cbn [set_descr set_old descr]. destruct (Z.eqb_spec d d0); [contradiction|reflexivity]. Qed.
Theorem C86_other_dtypes : forall has n d s, machine d = None -> descr (hooked_times n has) d s = descr (numpy_descrs has) d s.
Proof.
  intros has n d s H0. assert (H : ~ In d hooked_dtypes) by (intros C; destruct (machine_cty d C); contradiction). clear H0. induction n as [|n IH]; [reflexivity|]. cbn [hooked_times]. rewrite <- IH. generalize (hooked_times n has) as st. unfold hook_descrs.
  assert (A : forall l st, (forall d', In d' l -> d' <> d) -> descr (fold_left (fun st d => hook_dtype d st) l st) d s = descr st d s).
  { induction l as [|d0 l IHl]; intros st Hl; cbn [fold_left]; [reflexivity|]. rewrite IHl by (intros; apply Hl; now right).
    unfold hook_dtype. assert (N : d <> d0) by (intros ->; now apply (Hl d0); [left|]). revert st. generalize slots as ss. induction ss as [|s0 ss IHs]; intros st; cbn [fold_left]; [reflexivity|].
    rewrite IHs. now apply untouched_slot. }
  intros st. apply A. intros d' Hd' ->. contradiction.
Qed.
Print Assumptions C86_other_dtypes.

(** a NumPy with all of them: np.sort of int64 ('l') and the stable kind is taken or falls back to the function of 'q' (NPY_LONGLONG), hooked after it *)
Example C86_nonvacuous : sorts_present (fun _ _ => true) /\
  let st := hooked_times 1 (fun _ _ => true) in
  calls st (fun _ _ => true) (descr st 7 (SortSlot 2)) (PnumpyRuns (SortSlot 2) 7) /\ calls st (fun _ _ => false) (descr st 7 (SortSlot 2)) (NumpyRuns 9 (SortSlot 2)) /\
  calls st (fun _ _ => true) (descr st 12 ArgMinSlot) (NumpyRuns 12 ArgMinSlot) /\ calls st (fun _ _ => true) (descr st 23 (SortSlot 0)) (NumpyRuns 23 (SortSlot 0)).
Proof.
  split; [intros d k _ _; split; reflexivity|]. cbv zeta. split; [|split; [|split]].
  - replace (descr _ 7 (SortSlot 2)) with (Some (DStub (SortSlot 2) 7)) by (vm_compute; reflexivity). apply calls_takes; reflexivity.
  - replace (descr _ 7 (SortSlot 2)) with (Some (DStub (SortSlot 2) 7)) by (vm_compute; reflexivity). apply calls_punts; [reflexivity|intros E; exfalso; discriminate E|].
    replace (old _ (SortSlot 2) 7) with (Some (Own 9 (SortSlot 2))) by (vm_compute; reflexivity). constructor.
  - replace (descr _ 12 ArgMinSlot) with (Some (DStub ArgMinSlot 13)) by (vm_compute; reflexivity). apply calls_punts; [reflexivity|intros E; exfalso; discriminate E|].
    replace (old _ ArgMinSlot 13) with (Some (Own 12 ArgMinSlot)) by (vm_compute; reflexivity). constructor.
  - replace (descr _ 23 (SortSlot 0)) with (Some (Own 23 (SortSlot 0))) by (vm_compute; reflexivity). constructor.
Qed.
