(** Base.v - shared notation, tactics and list lemmas. No code of /repo is modelled here. *)
From Coq Require Export ZArith List Bool Lia Permutation.
From Coq Require Export ZifyBool.
Export ListNotations.
Open Scope Z_scope.

Ltac Zify.zify_post_hook ::= Z.div_mod_to_equations.

(** functional update of a Z-indexed table *)
Definition zupd {A} (f : Z -> A) (k : Z) (v : A) : Z -> A :=
  fun x => if x =? k then v else f x.

Lemma zupd_eq {A} (f : Z -> A) k v : zupd f k v k = v.
Proof. unfold zupd. now rewrite Z.eqb_refl. Qed.

Lemma zupd_neq {A} (f : Z -> A) k v x : x <> k -> zupd f k v x = f x.
Proof. unfold zupd. intros H. destruct (Z.eqb_spec x k); [contradiction|reflexivity]. Qed.

(** the integers [a, a+1, ..., a+n-1] *)
Fixpoint zseq (a : Z) (n : nat) : list Z :=
  match n with O => [] | S m => a :: zseq (a + 1) m end.

(** [zrange a b] = [a; ...; b-1] *)
Definition zrange (a b : Z) : list Z := zseq a (Z.to_nat (b - a)).

Lemma zseq_length a n : length (zseq a n) = n.
Proof. revert a; induction n as [|n IH]; intros a; simpl; [reflexivity|now rewrite IH]. Qed.

Lemma zseq_In a n x : In x (zseq a n) <-> a <= x < a + Z.of_nat n.
Proof.
  revert a; induction n as [|n IH]; intros a; simpl zseq.
  - simpl. lia.
  - simpl In. rewrite IH. lia.
Qed.

Lemma zseq_NoDup a n : NoDup (zseq a n).
Proof.
  revert a; induction n as [|n IH]; intros a; simpl; constructor.
  - rewrite zseq_In. lia.
  - apply IH.
Qed.

Lemma zrange_In a b x : In x (zrange a b) <-> a <= x < b.
Proof. unfold zrange. rewrite zseq_In. lia. Qed.

Lemma zrange_NoDup a b : NoDup (zrange a b).
Proof. apply zseq_NoDup. Qed.

Lemma zrange_length a b : length (zrange a b) = Z.to_nat (b - a).
Proof. apply zseq_length. Qed.

Lemma zseq_app a n m : zseq a (n + m) = zseq a n ++ zseq (a + Z.of_nat n) m.
Proof.
  revert a; induction n as [|n IH]; intros a.
  - cbn. f_equal. lia.
  - cbn [Nat.add zseq app]. f_equal. rewrite IH. f_equal. f_equal. lia.
Qed.

Lemma zrange_split a b c : a <= b <= c -> zrange a c = zrange a b ++ zrange b c.
Proof.
  intros H. unfold zrange.
  replace (Z.to_nat (c - a)) with (Z.to_nat (b - a) + Z.to_nat (c - b))%nat by lia.
  rewrite zseq_app. f_equal. f_equal. lia.
Qed.

Lemma zrange_nil a b : b <= a -> zrange a b = [].
Proof. intros H. unfold zrange. replace (Z.to_nat (b - a)) with O by lia. reflexivity. Qed.

Lemma zrange_cons a b : a < b -> zrange a b = a :: zrange (a + 1) b.
Proof.
  intros H. unfold zrange.
  replace (Z.to_nat (b - a)) with (S (Z.to_nat (b - (a + 1)))) by lia. reflexivity.
Qed.

Lemma zrange_snoc a b : a <= b -> zrange a (b + 1) = zrange a b ++ [b].
Proof.
  intros H. rewrite (zrange_split a b (b + 1)) by lia. f_equal.
  rewrite zrange_cons by lia. rewrite zrange_nil by lia. reflexivity.
Qed.

(** counting occurrences in a list of Z *)
Definition occ (e : Z) (l : list Z) : Z := Z.of_nat (count_occ Z.eq_dec l e).

Lemma occ_nil e : occ e [] = 0.
Proof. reflexivity. Qed.

Lemma occ_app e l1 l2 : occ e (l1 ++ l2) = occ e l1 + occ e l2.
Proof. unfold occ. rewrite count_occ_app. lia. Qed.

Lemma occ_cons e x l : occ e (x :: l) = (if x =? e then 1 else 0) + occ e l.
Proof.
  unfold occ. simpl. destruct (Z.eq_dec x e) as [->|n].
  - rewrite Z.eqb_refl. lia.
  - destruct (Z.eqb_spec x e); [contradiction|]. lia.
Qed.

Lemma occ_nonneg e l : 0 <= occ e l.
Proof. unfold occ. lia. Qed.

Lemma occ_In e l : 0 < occ e l <-> In e l.
Proof. unfold occ. rewrite (count_occ_In Z.eq_dec). lia. Qed.

(** pigeonhole: distinct elements of [0,n) that number at least n are all of [0,n) *)
Lemma pigeon_all (l : list Z) (n : Z) :
  NoDup l -> (forall x, In x l -> 0 <= x < n) -> n <= Z.of_nat (length l) ->
  forall x, 0 <= x < n -> In x l.
Proof.
  intros Hnd Hin Hlen x Hx.
  assert (Hincl : incl (zrange 0 n) l).
  { apply NoDup_length_incl.
    - assumption.
    - rewrite zrange_length. lia.
    - intros y Hy. apply zrange_In. auto. }
  apply Hincl, zrange_In. exact Hx.
Qed.

Lemma pigeon_le (l : list Z) (n : Z) :
  0 <= n -> NoDup l -> (forall x, In x l -> 0 <= x < n) -> Z.of_nat (length l) <= n.
Proof.
  intros Hn Hnd Hin.
  assert (H : (length l <= length (zrange 0 n))%nat).
  { apply NoDup_incl_length; [assumption|]. intros y Hy. apply zrange_In. auto. }
  rewrite zrange_length in H. lia.
Qed.

#[global] Arguments Z.mul : simpl never.
#[global] Arguments Z.add : simpl never.
#[global] Arguments Z.sub : simpl never.
#[global] Arguments Z.div : simpl never.
#[global] Arguments Z.modulo : simpl never.
#[global] Arguments Z.leb : simpl never.
#[global] Arguments Z.ltb : simpl never.
#[global] Arguments Z.eqb : simpl never.
#[global] Arguments Z.land : simpl never.
#[global] Arguments Z.opp : simpl never.
#[global] Arguments Z.of_nat : simpl never.

Lemma NoDup_app_iff_local {A} (l1 l2 : list A) :
  NoDup (l1 ++ l2) <-> NoDup l1 /\ NoDup l2 /\ (forall x, In x l1 -> ~ In x l2).
Proof.
  induction l1 as [|a l1 IH]; simpl.
  - split; [intros H; repeat split; [constructor|exact H|intros x []]|tauto].
  - rewrite !NoDup_cons_iff, IH, in_app_iff. split.
    + intros (H1 & H2 & H3 & H4). repeat split; try tauto. intros x [<-|Hx]; [tauto|auto].
    + intros ((H1 & H2) & H3 & H4). repeat split; try tauto.
      * intros [H|H]; [tauto|]. exact (H4 a (or_introl eq_refl) H).
      * intros x Hx. apply H4. right. exact Hx.
Qed.
