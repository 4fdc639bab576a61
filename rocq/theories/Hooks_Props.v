(** Hooks_Props.v - C56: hooking loses none of NumPy's loops and calls without a kernel always reach NumPy's own loop. *)
From Coq Require Import String.
From Verif Require Import Base Hooks_Model.

(** dtypes that are the same machine type (7 and 9 are both int64, 8 and 10 uint64) *)
Definition same_type (d d' : Z) : Prop := dtype_to_atop d = dtype_to_atop d'.
Definition mapping (c : cat) : list (string * Z) :=
  match c with Binary => gBinaryMapping | Compare => gCompareMapping | Unary => gUnaryMapping | Trig => gTrigMapping end.

Section Inv.
  Variable obj : string -> Z.
  Variable has_loop : Z -> Z -> Z -> bool.
  Variable wanted : cat -> Z -> Z -> option Z.

  (** a chain of old loops, through slots of [done] only, that ends in NumPy's loop of u for the type a with output type b *)
  Inductive falls (done : list (cat * Z)) (h : hooks) : loop -> Z -> Z -> Z -> Prop :=
  | falls_np : forall u d o, falls done h (Np u d o) u (dtype_to_atop d) (dtype_to_atop o)
  | falls_stub : forall c op a l u x b, In (c, op) done -> olds h c op a = Some l -> falls done h l u x b -> falls done h (Stub c op a) u x b.

  Lemma falls_ext done h h' l u a b : (forall c op a', In (c, op) done -> olds h' c op a' = olds h c op a') -> falls done h l u a b -> falls done h' l u a b.
  Proof. intros E F. induction F as [|c op a l u x b Hin Ho _ IH]; [constructor|]. econstructor; [exact Hin|rewrite E by exact Hin; exact Ho|exact IH]. Qed.
  Lemma falls_mono done done' h l u a b : incl done done' -> falls done h l u a b -> falls done' h l u a b.
  Proof. intros I F. induction F; [constructor|]. econstructor; [apply I; eassumption|eassumption|assumption]. Qed.

  Lemma out_same d d' oa : same_type d d' -> In d dtypes -> In d' dtypes -> same_type (out_dtype d oa) (out_dtype d' oa).
  Proof.
    intros E Hd Hd'. unfold out_dtype. set (od := atop_to_dtype oa). unfold same_type in *.
    assert (K : forall x, In x dtypes -> 0 <= x <= 12) by (intros x Hx; cbn in Hx; lia).
    apply K in Hd. apply K in Hd'. unfold dtype_to_atop in E.
    destruct ((5 <=? od) && (od <=? 10)) eqn:Eo; rewrite ?andb_true_r, ?andb_false_r; [|reflexivity].
    destruct (Z.leb_spec 5 d), (Z.leb_spec d 10), (Z.leb_spec 5 d'), (Z.leb_spec d' 10); cbn [andb]; try exact E; try reflexivity; exfalso; revert E;
      repeat match goal with |- context[?x <=? ?y] => destruct (Z.leb_spec x y) | |- context[?x =? ?y] => destruct (Z.eqb_spec x y) end; lia.
  Qed.

  (** within the dtypes of one (category, opcode): cells already hooked for it go through its slot, the others avoid it *)
  Definition mid (done : list (cat * Z)) (c : cat) (name : string) (op : Z) (processed : list Z) (h : hooks) : Prop :=
    forall u d o, falls done h (loops h u d o) u (dtype_to_atop d) (dtype_to_atop o) \/
      (In d processed /\ u = obj name /\ loops h u d o = Stub c op (dtype_to_atop d) /\
       exists l oa, wanted c op (dtype_to_atop d) = Some oa /\ o = out_dtype d oa /\ olds h c op (dtype_to_atop d) = Some l /\
                    falls done h l u (dtype_to_atop d) (dtype_to_atop o)).

  Lemma cat_eqb_eq x y : cat_eqb x y = true <-> x = y. Proof. destruct x, y; cbn; intuition congruence. Qed.

  Lemma mid_step done c name op pr d h h' : ~ In (c, op) done -> ~ In d pr -> In d dtypes -> incl pr dtypes ->
    mid done c name op pr h -> hook_dtype obj has_loop wanted c name op d h = Some h' -> mid done c name op (d :: pr) h'.
  Proof.
    intros Hnd Hnp Hd Hpr M H. unfold hook_dtype in H. cbv zeta in H. destruct (wanted c op (dtype_to_atop d)) as [oa|] eqn:Ew.
    2:{ injection H as <-. intros u d0 o. destruct (M u d0 o) as [F|(A & B)]; [now left|right; split; [now right|exact B]]. }
    destruct (has_loop (obj name) d (out_dtype d oa)); [|discriminate]. injection H as <-.
    assert (X : forall l u a b, falls done h l u a b -> falls done (replace (obj name) d (out_dtype d oa) c op (dtype_to_atop d) name h) l u a b).
    { intros l u a b. apply falls_ext. intros c0 op0 a' Hin. cbn [replace olds]. destruct (cat_eqb c0 c && (op0 =? op) && (a' =? dtype_to_atop d)) eqn:E; [|reflexivity].
      apply andb_true_iff in E. destruct E as [E _]. apply andb_true_iff in E. destruct E as [E1 E2]. apply cat_eqb_eq in E1. apply Z.eqb_eq in E2. subst. contradiction. }
    assert (Old : falls done h (loops h (obj name) d (out_dtype d oa)) (obj name) (dtype_to_atop d) (dtype_to_atop (out_dtype d oa))).
    { destruct (M (obj name) d (out_dtype d oa)) as [F|(A & _)]; [exact F|contradiction]. }
    intros u d0 o. cbn [replace loops olds]. destruct ((u =? obj name) && (d0 =? d) && (o =? out_dtype d oa)) eqn:E.
    - apply andb_true_iff in E. destruct E as [E E3]. apply andb_true_iff in E. destruct E as [E1 E2]. apply Z.eqb_eq in E1, E2, E3. subst u d0 o.
      right. split; [now left|]. split; [reflexivity|]. split; [reflexivity|]. exists (loops h (obj name) d (out_dtype d oa)), oa.
      split; [exact Ew|]. split; [reflexivity|]. split; [|now apply X]. rewrite (proj2 (cat_eqb_eq c c) eq_refl), !Z.eqb_refl. reflexivity.
    - destruct (M u d0 o) as [F|(A & B & C & l & oa0 & D1 & D2 & D3 & D4)]; [left; now apply X|].
      right. split; [now right|]. split; [exact B|]. split; [exact C|]. rewrite (proj2 (cat_eqb_eq c c) eq_refl), Z.eqb_refl. cbn [andb].
      destruct (dtype_to_atop d0 =? dtype_to_atop d) eqn:Ed.
      + apply Z.eqb_eq in Ed. rewrite Ed in D1. rewrite Ew in D1. injection D1 as <-.
        exists (loops h (obj name) d (out_dtype d oa)), oa. rewrite Ed, Ew. split; [reflexivity|]. split; [exact D2|]. split; [reflexivity|].
        apply X. subst u o. rewrite (out_same d0 d oa Ed (Hpr _ A) Hd). exact Old.
      + exists l, oa0. repeat split; auto.
  Qed.

  Definition settled (done : list (cat * Z)) (h : hooks) : Prop :=
    forall u d o, falls done h (loops h u d o) u (dtype_to_atop d) (dtype_to_atop o).
  Lemma mid_settled done c name op pr h : mid done c name op pr h -> settled ((c, op) :: done) h.
  Proof.
    intros M u d o. destruct (M u d o) as [F|(A & B & C & l & oa & D1 & D2 & D3 & D4)].
    - eapply falls_mono; [|exact F]. intros x Hx. now right.
    - rewrite C. econstructor; [now left|exact D3|]. eapply falls_mono; [|exact D4]. intros x Hx. now right.
  Qed.
  Lemma hook_dtypes_mid done c name op : ~ In (c, op) done -> forall ds pr h, NoDup (pr ++ ds) -> incl pr dtypes -> incl ds dtypes ->
    mid done c name op pr h -> settled ((c, op) :: done) (fst (hook_dtypes obj has_loop wanted c name op ds h)).
  Proof.
    intros Hnd. induction ds as [|d ds IH]; intros pr h Nd Ip Id M; cbn [hook_dtypes]; [eapply mid_settled; exact M|].
    destruct (hook_dtype obj has_loop wanted c name op d h) as [h'|] eqn:E; [|eapply mid_settled; exact M].
    assert (Hnp : ~ In d pr). { intros Hp. apply NoDup_remove_2 in Nd. apply Nd, in_or_app. now left. }
    apply (IH (d :: pr)); [|intros x [<-|Hx]; [apply Id; now left|now apply Ip]|intros x Hx; apply Id; now right|].
    - cbn [app]. constructor; [now apply NoDup_remove_2 in Nd|now apply NoDup_remove_1 in Nd].
    - eapply mid_step; [exact Hnd|exact Hnp|apply Id; now left|exact Ip|exact M|exact E].
  Qed.
  Lemma hook_names_settled c ds : NoDup ds -> incl ds dtypes -> forall m done h, NoDup (map snd m) -> (forall op, In op (map snd m) -> ~ In (c, op) done) ->
    settled done h -> exists done', settled done' (fst (hook_names obj has_loop wanted c m ds h)) /\
      (forall c' op, In (c', op) done' -> In (c', op) done \/ c' = c).
  Proof.
    intros Nds Ids. induction m as [|[name op] m IH]; intros done h Nm Hd S; cbn [hook_names fst]; [exists done; auto|].
    assert (S1 : settled ((c, op) :: done) (fst (hook_dtypes obj has_loop wanted c name op ds h))).
    { apply (hook_dtypes_mid done c name op) with (pr := []); [apply Hd; now left|exact Nds|intros x []|exact Ids|]. intros u d o. left. apply S. }
    destruct (hook_dtypes obj has_loop wanted c name op ds h) as [h' ok]. cbn [fst] in S1. cbn [map snd] in Nm. inversion Nm as [|x y Hni Nm']; subst.
    destruct ok.
    - destruct (IH ((c, op) :: done) h' Nm') as (done' & S' & I').
      + intros op' Ho [E|Hin]; [injection E as <-; contradiction|]. eapply Hd; [right; exact Ho|exact Hin].
      + exact S1.
      + exists done'. split; [exact S'|]. intros c' op' Hin. destruct (I' _ _ Hin) as [[E|Hx]|Hx]; [injection E as <- <-; now right|now left|now right].
    - exists ((c, op) :: done). split; [exact S1|]. intros c' op' [E|Hin]; [injection E as <- <-; now right|now left].
  Qed.
  Lemma hook_all_settled : forall l done h, NoDup (map (fun e => fst (fst e)) l) ->
    (forall c m ds, In (c, m, ds) l -> NoDup ds /\ incl ds dtypes /\ NoDup (map snd m) /\ (forall op, ~ In (c, op) done)) ->
    settled done h -> exists done', settled done' (hook_all obj has_loop wanted l h).
  Proof.
    induction l as [|[[c m] ds] l IH]; intros done h Nl H S; cbn [hook_all]; [exists done; exact S|].
    destruct (H c m ds (or_introl eq_refl)) as (A & B & C & D). inversion Nl as [|x y Hni Nl']; subst.
    destruct (hook_names_settled c ds A B m done h C (fun op _ => D op) S) as (done' & S' & I').
    destruct (hook_names obj has_loop wanted c m ds h) as [h' ok]. cbn [fst] in S'. destruct ok; [|exists done'; exact S'].
    apply (IH done' h' Nl'); [|exact S']. intros c0 m0 ds0 Hin. destruct (H c0 m0 ds0 (or_intror Hin)) as (A0 & B0 & C0 & D0). repeat split; try assumption.
    intros op Hop. destruct (I' _ _ Hop) as [Hx|Hx]; [now apply (D0 op)|]. subst c0. apply Hni. apply (in_map (fun e => fst (fst e)) l (c, m0, ds0) Hin).
  Qed.
End Inv.

Fixpoint distinct (l : list Z) : bool := match l with [] => true | x :: l' => negb (existsb (Z.eqb x) l') && distinct l' end.
Lemma distinct_ok l : distinct l = true -> NoDup l.
Proof.
  induction l as [|x l IH]; cbn [distinct]; intros H; [constructor|]. apply andb_true_iff in H. destruct H as [A B]. constructor; [|now apply IH].
  intros Hin. apply negb_true_iff in A. assert (existsb (Z.eqb x) l = true) by (apply existsb_exists; exists x; split; [exact Hin|apply Z.eqb_refl]). congruence.
Qed.
Lemma init_settled obj has_loop wanted : exists done, settled done (initialize obj has_loop wanted).
Proof.
  unfold initialize. apply hook_all_settled with (done := []).
  - cbn. repeat constructor; cbn; intuition discriminate.
  - intros c m ds H. cbn [In] in H. assert (N0 : forall op : Z, ~ In (c, op) []) by (intros op []).
    assert (I2 : incl trig_dtypes dtypes) by (intros x Hx; cbn in *; lia).
    destruct H as [H|[H|[H|[H|[]]]]]; injection H as <- <- <-; (split; [apply distinct_ok; reflexivity|]); (split; [try apply incl_refl; try exact I2|]); (split; [apply distinct_ok; reflexivity|exact N0]).
  - intros u d o. cbn. constructor.
Qed.
Lemma falls_back done h l u a b : falls done h l u a b -> exists k d o, fall_back k h l = Some (u, d, o) /\ dtype_to_atop d = a /\ dtype_to_atop o = b.
Proof.
  intros F. induction F as [u d o|c op a l u x b Hin Ho F IH].
  - exists 1%nat, d, o. repeat split.
  - destruct IH as (k & d & o & E & A & B). exists (S k), d, o. cbn [fall_back]. rewrite Ho. auto.
Qed.
Lemma fall_back_mono h : forall k l r, fall_back k h l = Some r -> forall k', (k <= k')%nat -> fall_back k' h l = Some r.
Proof.
  induction k as [|k IH]; intros l r E k' Hk; [discriminate|]. destruct k' as [|k']; [lia|]. cbn [fall_back] in *. destruct l; [exact E|].
  destruct (olds h c op a); [|discriminate]. apply IH; [exact E|lia].
Qed.

(** C56.  Whatever names share a ufunc object, whichever loops exist and whichever operations are hooked, and also when initialize
    stops half way with an error: a call of any loop of any ufunc that uses no kernel (atop disabled, ...) ends, after finitely
    many stubs, in NumPy's original loop of the same ufunc for the same machine type of input and output. *)
Theorem C56_falls_back_to_numpy : forall obj has_loop wanted u d o, let h := initialize obj has_loop wanted in
  exists k d' o', (forall k', (k <= k')%nat -> fall_back k' h (loops h u d o) = Some (u, d', o')) /\ same_type d' d /\ same_type o' o.
Proof.
  intros obj has_loop wanted u d o h. destruct (init_settled obj has_loop wanted) as (done & S).
  destruct (falls_back _ _ _ _ _ _ (S u d o)) as (k & d' & o' & E & A & B). exists k, d', o'. split; [|split; assumption].
  intros k' Hk. eapply fall_back_mono; eauto.
Qed.
Print Assumptions C56_falls_back_to_numpy.

(** ---------- the stub installed is that of an operation listed under a name of this ufunc ---------- *)
Section Right.
  Variable obj : string -> Z.
  Variable has_loop : Z -> Z -> Z -> bool.
  Variable wanted : cat -> Z -> Z -> option Z.
  Definition right (h : hooks) : Prop :=
    (forall u d o c op a, loops h u d o = Stub c op a -> a = dtype_to_atop d /\ exists name, obj name = u /\ In (name, op) (mapping c)) /\
    (forall name d c op a, In (name, d, (c, op, a)) (dict h) -> a = dtype_to_atop d /\ In (name, op) (mapping c)).
  Lemma right_dtypes c name op : In (name, op) (mapping c) -> forall ds h, right h -> right (fst (hook_dtypes obj has_loop wanted c name op ds h)).
  Proof.
    intros Hin. induction ds as [|d ds IH]; intros h R; cbn [hook_dtypes]; [exact R|]. unfold hook_dtype. cbv zeta.
    destruct (wanted c op (dtype_to_atop d)) as [oa|]; [|now apply IH]. destruct (has_loop (obj name) d (out_dtype d oa)); [|exact R]. apply IH.
    destruct R as [R1 R2]. split.
    - intros u d0 o c0 op0 a. cbn [replace loops]. destruct ((u =? obj name) && (d0 =? d) && (o =? out_dtype d oa)) eqn:E; [|apply R1].
      apply andb_true_iff in E. destruct E as [E _]. apply andb_true_iff in E. destruct E as [E1 E2]. apply Z.eqb_eq in E1, E2. subst.
      intros H. injection H as <- <- <-. split; [reflexivity|]. exists name. auto.
    - intros name0 d0 c0 op0 a [H|H]; [|now apply R2]. injection H as <- <- <- <- <-. auto.
  Qed.
  Lemma right_names c ds : forall m h, incl m (mapping c) -> right h -> right (fst (hook_names obj has_loop wanted c m ds h)).
  Proof.
    induction m as [|[name op] m IH]; intros h I R; cbn [hook_names]; [exact R|].
    pose proof (right_dtypes c name op (I _ (or_introl eq_refl)) ds h R) as R'. destruct (hook_dtypes obj has_loop wanted c name op ds h) as [h' []]; [|exact R'].
    apply IH; [intros x Hx; apply I; now right|exact R'].
  Qed.
  Lemma right_all : forall l h, (forall c m ds, In (c, m, ds) l -> m = mapping c) -> right h -> right (hook_all obj has_loop wanted l h).
  Proof.
    induction l as [|[[c m] ds] l IH]; intros h H R; cbn [hook_all]; [exact R|].
    assert (R' : right (fst (hook_names obj has_loop wanted c m ds h))) by (apply right_names; [rewrite (H c m ds (or_introl eq_refl)); apply incl_refl|exact R]).
    destruct (hook_names obj has_loop wanted c m ds h) as [h' []]; [|exact R']. apply IH; [|exact R']. intros c0 m0 ds0 Hin. apply (H c0 m0 ds0). now right.
  Qed.
  Lemma init_right : right (initialize obj has_loop wanted).
  Proof.
    apply right_all; [|split; [discriminate|intros ? ? ? ? ? []]]. intros c m ds H. cbn in H.
    destruct H as [H|[H|[H|[H|[]]]]]; injection H as <- <- <-; reflexivity.
  Qed.
End Right.

(** every hooked loop runs the operation that the tables list under (a name of) its ufunc, for its own machine type *)
Theorem C56_right_operation : forall obj has_loop wanted u d o c op a, let h := initialize obj has_loop wanted in
  loops h u d o = Stub c op a -> a = dtype_to_atop d /\ exists name, obj name = u /\ In (name, op) (mapping c).
Proof. intros obj has_loop wanted u d o c op a h H. exact (proj1 (init_right obj has_loop wanted) u d o c op a H). Qed.
(** atop_setworkers and atop_info reach the slot of their own function: two names never share one, and two dtypes only if they
    are the same machine type *)
Theorem C56_info_keys : forall obj has_loop wanted name d name' d' slot, let h := initialize obj has_loop wanted in
  get_from_dict h name d = Some slot -> get_from_dict h name' d' = Some slot -> name = name' /\ same_type d d'.
Proof.
  intros obj has_loop wanted name d name' d' [[c op] a] h H H'. pose proof (proj2 (init_right obj has_loop wanted)) as R. fold h in R. unfold get_from_dict in *.
  assert (K : forall n x, match find (fun e => String.eqb (fst (fst e)) n && (snd (fst e) =? x)) (dict h) with Some e => Some (snd e) | None => None end = Some (c, op, a) ->
     a = dtype_to_atop x /\ In (n, op) (mapping c)).
  { intros n x Hf. clear H H'. destruct (find (fun e => String.eqb (fst (fst e)) n && (snd (fst e) =? x)) (dict h)) as [[[n0 x0] s]|] eqn:E; [|discriminate]. cbn [snd] in Hf. assert (s = (c, op, a)) as -> by congruence. apply find_some in E. cbn [fst snd] in E. destruct E as [Hin Hb].
    apply andb_true_iff in Hb. destruct Hb as [B1 B2]. apply String.eqb_eq in B1. apply Z.eqb_eq in B2. subst. now apply R. }
  destruct (K _ _ H) as [A1 B1]. destruct (K _ _ H') as [A2 B2]. split; [|unfold same_type; congruence].
  assert (N : NoDup (map snd (mapping c))) by (destruct c; apply distinct_ok; reflexivity). revert B1 B2 N. clear. generalize (mapping c) as m.
  induction m as [|[n0 o0] m IH]; intros B1 B2 N; [destruct B1|]. cbn [map snd] in N. inversion N as [|x y Hni N']; subst.
  destruct B1 as [E1|B1], B2 as [E2|B2]; [congruence|injection E1 as -> ->; exfalso; apply Hni; apply (in_map snd m (name', op) B2)
    |injection E2 as -> ->; exfalso; apply Hni; apply (in_map snd m (name, op) B1)|now apply IH].
Qed.

(** the case in NumPy: bitwise_not is invert, so invert's int64 loop ends up two stubs deep *)
Definition np_obj (name : string) : Z :=
  if String.eqb name "bitwise_not" then 4 else if String.eqb name "invert" then 4 else Z.of_nat (String.length name) + 100.
Example C56_nonvacuous : let h := initialize np_obj (fun _ _ _ => true) (fun _ _ a => Some a) in
  loops h 4 7 7 = Stub Unary 28 7 /\ olds h Unary 28 7 = Some (Stub Unary 4 7) /\ fall_back 3 h (loops h 4 7 7) = Some (4, 9, 9) /\
  fall_back 2 h (loops h 4 7 7) = None.
Proof. vm_compute. repeat split. Qed.
