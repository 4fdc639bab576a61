(** SortCmp_Proofs.v - the comparisons are strict weak orders. *)
From Coq Require Import SpecFloat Sorted.
From Verif Require Import Base Sort_Model SortCmp_Model Sort_Base_Proofs Sort_Insert_Proofs.

(** * integers *)
Lemma sw_int : strict_weak Z.ltb.
Proof. split; intros; lia. Qed.

Lemma sw_pull {A B} (f : A -> B) (lt : B -> B -> bool) : strict_weak lt -> strict_weak (fun x y => lt (f x) (f y)).
Proof. intros [H1 H2]. split; intros; eauto. Qed.

(** * floats, through a lexicographic key: class, exponent, mantissa *)
Definition fkey (x : spec_float) : Z * Z * Z :=
  match x with
  | S754_infinity true => (0, 0, 0)
  | S754_finite true m e => (1, - e, - Zpos m)
  | S754_zero _ => (2, 0, 0)
  | S754_finite false m e => (3, e, Zpos m)
  | S754_infinity false => (4, 0, 0)
  | S754_nan => (5, 0, 0)
  end.
Definition lex3 (x y : Z * Z * Z) : bool :=
  let '(a, b, c) := x in let '(a', b', c') := y in
  (a <? a') || ((a =? a') && ((b <? b') || ((b =? b') && (c <? c')))).
Lemma sw_lex3 : strict_weak lex3.
Proof. split; intros [[a b] c] [[a' b'] c']; [|intros [[a'' b''] c'']]; unfold lex3; intros; lia. Qed.

Lemma SFcompare_fkey x y : x <> S754_nan -> y <> S754_nan ->
  SFcompare x y = Some (if lex3 (fkey x) (fkey y) then Lt else if lex3 (fkey y) (fkey x) then Gt else Eq).
Proof.
  intros Hx Hy.
  destruct x as [s|s| |s mx ex]; try congruence; destruct y as [s'|s'| |s' my ey]; try congruence;
    destruct s, s'; try reflexivity; cbn [SFcompare fkey lex3]; f_equal.
  all: destruct (Z.compare_spec ex ey) as [->|H|H]; [change (Pos.compare_cont Eq mx my) with (Pos.compare mx my);
        destruct (Pos.compare_spec mx my) as [->|H|H]| |]; cbn [CompOpp].
  all: repeat match goal with
    | |- context [?a <? ?b] => destruct (Z.ltb_spec a b); cbn [orb andb]
    | |- context [?a =? ?b] => destruct (Z.eqb_spec a b); cbn [orb andb]
    end; try reflexivity; try lia.
Qed.

Lemma lex3_irr k : lex3 k k = false.
Proof. destruct k as [[a b] c]. unfold lex3. lia. Qed.

Lemma SFeqb_self x : SFeqb x x = match x with S754_nan => false | _ => true end.
Proof.
  destruct x as [s|s| |s m e]; try (destruct s; reflexivity); try reflexivity.
  unfold SFeqb. rewrite SFcompare_fkey by discriminate. rewrite lex3_irr. reflexivity.
Qed.

Lemma SFltb_fkey x y : x <> S754_nan -> y <> S754_nan -> SFltb x y = lex3 (fkey x) (fkey y).
Proof.
  intros Hx Hy. unfold SFltb. rewrite SFcompare_fkey by assumption.
  destruct (lex3 (fkey x) (fkey y)); [reflexivity|]. now destruct (lex3 (fkey y) (fkey x)).
Qed.
Lemma SFleb_fkey x y : x <> S754_nan -> y <> S754_nan -> SFleb x y = negb (lex3 (fkey y) (fkey x)).
Proof.
  intros Hx Hy. unfold SFleb. rewrite SFcompare_fkey by assumption.
  destruct (lex3 (fkey x) (fkey y)) eqn:E; [|now destruct (lex3 (fkey y) (fkey x))].
  now rewrite (sw_asym _ sw_lex3 _ _ E).
Qed.
Lemma SFltb_nan_l y : SFltb S754_nan y = false.
Proof. reflexivity. Qed.
Lemma SFltb_nan_r x : SFltb x S754_nan = false.
Proof. now destruct x. Qed.
Lemma SFleb_nan_l y : SFleb S754_nan y = false.
Proof. reflexivity. Qed.

Lemma nan_dec (x : spec_float) : x = S754_nan \/ x <> S754_nan.
Proof. destruct x; [right|right|left|right]; congruence. Qed.

Lemma fkey_nan x : x <> S754_nan -> lex3 (fkey S754_nan) (fkey x) = false /\ lex3 (fkey x) (fkey S754_nan) = true.
Proof. intros H. destruct x as [s|s| |s m e]; try congruence; destruct s; split; reflexivity. Qed.

Section FloatLaws.
  Context {T : Type}.
  Variable val : T -> spec_float.
  Lemma lt_float_key x y : lt_float val x y = lex3 (fkey (val x)) (fkey (val y)).
  Proof.
    unfold lt_float. rewrite !SFeqb_self.
    destruct (nan_dec (val x)) as [Ex|Ex], (nan_dec (val y)) as [Ey|Ey].
    - now rewrite Ex, Ey.
    - rewrite Ex, SFltb_nan_l. rewrite (proj1 (fkey_nan _ Ey)). rewrite andb_false_r. reflexivity.
    - rewrite Ey, SFltb_nan_r. rewrite (proj2 (fkey_nan _ Ex)). now destruct (val x).
    - rewrite SFltb_fkey by assumption. replace (negb _) with false by (now destruct (val y)). rewrite orb_false_r. reflexivity.
  Qed.
  Lemma sw_float : strict_weak (lt_float val).
  Proof.
    destruct (sw_pull (fun x => fkey (val x)) lex3 sw_lex3) as [H1 H2].
    split; intros x y; [|intros z]; rewrite !lt_float_key; eauto.
  Qed.
  Lemma nan_float_true x : nan_float val x = true <-> val x = S754_nan.
  Proof. unfold nan_float. rewrite SFeqb_self. destruct (val x); cbn; split; congruence. Qed.
  Lemma nan_float_false x : nan_float val x = false <-> val x <> S754_nan.
  Proof. unfold nan_float. rewrite SFeqb_self. destruct (val x); cbn; split; congruence. Qed.
  Lemma float_N1 l r : nan_float val r = false -> LE_float val l r = negb (lt_float val r l).
  Proof.
    rewrite nan_float_false. intros Hr. rewrite lt_float_key. unfold LE_float.
    destruct (nan_dec (val l)) as [E|E].
    - rewrite E, SFleb_nan_l. now rewrite (proj2 (fkey_nan _ Hr)).
    - now apply SFleb_fkey.
  Qed.
  Lemma float_N2 x y : nan_float val x = true -> lt_float val x y = false.
  Proof.
    rewrite nan_float_true. intros Hx. rewrite lt_float_key, Hx.
    destruct (nan_dec (val y)) as [E|E]; [now rewrite E|]. apply fkey_nan, E.
  Qed.
  Lemma float_N3 x y : nan_float val x = true -> nan_float val y = false -> lt_float val y x = true.
  Proof. rewrite nan_float_true, nan_float_false. intros Hx Hy. rewrite lt_float_key, Hx. apply fkey_nan, Hy. Qed.
  Lemma raw_float x y : val x <> S754_nan -> val y <> S754_nan -> rawlt_float val x y = lt_float val x y.
  Proof. intros Hx Hy. rewrite lt_float_key. now apply SFltb_fkey. Qed.
End FloatLaws.

(** * strings *)
Fixpoint lexl (a b : list Z) : bool :=
  match a, b with
  | [], [] => false
  | [], _ :: _ => true
  | _ :: _, [] => false
  | x :: a, y :: b => (x <? y) || ((x =? y) && lexl a b)
  end.
Lemma lexl_irr a : lexl a a = false.
Proof. induction a as [|x a IH]; [reflexivity|]. cbn. rewrite Z.ltb_irrefl, Z.eqb_refl, IH. reflexivity. Qed.
Lemma sw_lexl : strict_weak lexl.
Proof.
  split.
  - induction x as [|a x IH]; intros [|b y]; cbn; try congruence. intros H.
    apply orb_true_iff in H. destruct H as [H|H].
    + apply Z.ltb_lt in H. replace (b <? a) with false by lia. replace (b =? a) with false by lia. reflexivity.
    + apply andb_true_iff in H. destruct H as [H1 H2]. apply Z.eqb_eq in H1. subst. rewrite Z.ltb_irrefl, Z.eqb_refl. cbn. now apply IH.
  - induction x as [|a x IH]; intros [|b y] [|c z]; cbn; try congruence. intros H1 H2.
    destruct (Z.compare_spec a b) as [->|Hab|Hab]; destruct (Z.compare_spec b c) as [->|Hbc|Hbc].
    all: repeat match goal with
      | H : ?p < ?q |- _ => progress (rewrite ?(proj2 (Z.ltb_lt p q) H), ?(proj2 (Z.ltb_ge q p) ltac:(lia)), ?(proj2 (Z.eqb_neq p q) ltac:(lia)), ?(proj2 (Z.eqb_neq q p) ltac:(lia)) in *)
      end; rewrite ?Z.ltb_irrefl, ?Z.eqb_refl in *; cbn in *; try congruence.
    + eapply IH; eassumption.
    + replace (a <? c) with false by lia. replace (a =? c) with false by lia. reflexivity.
Qed.
Lemma string_lexl a b : length a = length b -> STRING_LT a b = lexl a b.
Proof.
  revert b; induction a as [|x a IH]; intros [|y b]; cbn; try congruence; try reflexivity. intros H.
  destruct (Z.eqb_spec x y) as [->|E]; cbn.
  - rewrite Z.ltb_irrefl. apply IH. congruence.
  - now rewrite orb_false_r.
Qed.

(** * from stable rearrangement to stable order *)
Section StableOrder.
  Context {T : Type}.
  Variables (lt : T -> T -> bool) (R : T -> T -> Prop).
  Hypothesis SW : strict_weak lt.

  Lemma eqv_refl x : eqv lt x x = true.
  Proof. unfold eqv. pose proof (le_refl lt SW x) as H. unfold le in H. now rewrite H. Qed.

  Lemma filter_sorted (f : T -> bool) l : StronglySorted R l -> StronglySorted R (filter f l).
  Proof.
    induction 1 as [|a l H IH Hf]; cbn; [constructor|]. destruct (f a); [|exact IH]. constructor; [exact IH|].
    apply Forall_forall. intros x Hx. apply filter_In in Hx. rewrite Forall_forall in Hf. now apply Hf.
  Qed.

  (** sort stably by lt a list sorted by R: the result is sorted by lt, then R *)
  Lemma srel_refine l l' : StronglySorted R l -> srel lt l l' -> StronglySorted (le lt) l' ->
    StronglySorted (fun a b => lt a b = true \/ (lt a b = false /\ lt b a = false /\ R a b)) l'.
  Proof.
    intros HR [_ Hf] Hs.
    assert (G : forall x, StronglySorted R (filter (eqv lt x) l')) by (intros x; rewrite Hf; now apply filter_sorted).
    clear HR Hf. induction Hs as [|a l0 H IH Hall]; constructor.
    - apply IH. intros x. specialize (G x). cbn in G. destruct (eqv lt x a); [now inversion G|exact G].
    - apply Forall_forall. intros b Hb. rewrite Forall_forall in Hall. specialize (Hall b Hb). unfold le in Hall.
      destruct (lt a b) eqn:E; [now left|]. right. repeat (split; [assumption||reflexivity|]).
      specialize (G a). cbn in G. rewrite eqv_refl in G. inversion G as [|? ? _ Hf]; subst.
      rewrite Forall_forall in Hf. apply Hf. apply filter_In. split; [exact Hb|]. unfold eqv. rewrite E, Hall. reflexivity.
  Qed.
End StableOrder.

Lemma ssorted_nth {T} (R : T -> T -> Prop) (l : list T) d : StronglySorted R l ->
  forall i j, (i < j < length l)%nat -> R (nth i l d) (nth j l d).
Proof.
  induction 1 as [|a l H IH Hf]; cbn; intros i j Hij; [lia|].
  rewrite Forall_forall in Hf. destruct i, j; cbn; try lia.
  - apply Hf. apply nth_In. lia.
  - apply IH. lia.
Qed.
Lemma ssorted_seg {T} (R : T -> T -> Prop) (m : Z -> T) lo hi : StronglySorted R (seg m lo hi) ->
  forall i j, lo <= i < j -> j < hi -> R (m i) (m j).
Proof.
  remember (Z.to_nat (hi - lo)) as k. revert lo Heqk.
  induction k as [|k IH]; intros lo Hk Hs i j Hij Hj; [lia|].
  rewrite seg_cons in Hs by lia. inversion Hs as [|? ? Hs' Hf]; subst.
  destruct (Z.eq_dec i lo) as [->|Hne].
  - rewrite Forall_forall in Hf. apply Hf. apply seg_In. exists j. split; [lia|reflexivity].
  - apply (IH (lo + 1)); try lia. exact Hs'.
Qed.
Lemma zrange_ssorted a b : StronglySorted Z.lt (zrange a b).
Proof.
  remember (Z.to_nat (b - a)) as k. revert a Heqk. induction k as [|k IH]; intros a Hk.
  - rewrite zrange_nil by lia. constructor.
  - rewrite zrange_cons by lia. constructor; [apply IH; lia|].
    apply Forall_forall. intros x Hx. apply zrange_In in Hx. lia.
Qed.
