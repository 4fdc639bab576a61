(** Kernel_Props.v - C14, C15. *)
From Verif Require Import Base Kernel_Model Kernel_Proofs.

(** ---------- specification ---------- *)
(** What an element-wise call must do to memory: output i holds [op] of the two ORIGINAL inputs i, for all
    i < n, and no byte outside the n outputs changes. *)
Definition elementwise (sz : Z) (op : Z -> Z -> Z) (a1 s1 a2 s2 out so n : Z) (m m' : bytes) : Prop :=
  (forall i, 0 <= i < n -> ld sz m' (out + i * so) = op (ld sz m (a1 + i * s1)) (ld sz m (a2 + i * s2))) /\
  (forall x, (forall i, 0 <= i < n -> ~ (out + i * so <= x < out + i * so + sz)) -> m' x = m x).

(** an operation on patterns of [sz] bytes yields a pattern of [sz] bytes *)
Definition closed_op (sz : Z) (op : Z -> Z -> Z) : Prop := forall x y, pat sz x -> pat sz y -> pat sz (op x y).

(** The operands NumPy hands to an inner loop: outputs separate, and every input either is the output itself,
    or is ahead of it, or does not meet it: no output written for element j touches an input of a later element. *)
Definition operands_ok (sz a1 s1 a2 s2 out so n : Z) : Prop :=
  outs_separate sz out so n /\ no_clobber sz a1 s1 out so n /\ no_clobber sz a2 s2 out so n.

Lemma operands_disjoint_ok sz a1 a2 out n : 0 < sz -> 0 <= n ->
  (a1 + n * sz <= out \/ out + n * sz <= a1 \/ a1 = out) ->
  (a2 + n * sz <= out \/ out + n * sz <= a2 \/ a2 = out) ->
  operands_ok sz a1 sz a2 sz out sz n.
Proof.
  intros Hs Hn H1 H2. unfold operands_ok, outs_separate, no_clobber, disj.
  split; [intros i j Hi Hj Hne|split; intros i j Hj Hi].
  - assert (i < j \/ j < i) as [C|C] by lia; nia.
  - destruct H1 as [H|[H|H]]; nia.
  - destruct H2 as [H|[H|H]]; nia.
Qed.

(** ---------- C14 ---------- *)
Section General.
  Variables (sz : Z) (op opv : Z -> Z -> Z).
  Hypothesis Hg : good_sz sz.
  Hypothesis Hcl : closed_op sz op.

  Lemma scalar_ok a1 a2 out n s1 s2 so m : 0 <= n -> bytes_ok m -> operands_ok sz a1 s1 a2 s2 out so n ->
    elementwise sz op a1 s1 a2 s2 out so n m (scalar_loop sz op (Ptr a1 s1) (Ptr a2 s2) out so n m).
  Proof.
    intros Hn Hm (Ho & H1 & H2). pose proof (good_pos sz Hg) as Hs.
    set (F := fun i => op (ld sz m (a1 + i * s1)) (ld sz m (a2 + i * s2))).
    pose proof (scalar_loop_upto sz op out so n F m (Ptr a1 s1) (Ptr a2 s2)
      (fun i => ld sz m (a1 + i * s1)) (fun i => ld sz m (a2 + i * s2)) 0 n m) as S.
    replace (out + 0 * so) with out in S by lia. rewrite Z.add_0_l in S.
    apply S; try assumption; try lia; try apply upto_0.
    - pose proof (delivers_ptr sz out so n F m a1 s1 0 ltac:(lia) H1) as D. now replace (a1 + 0 * s1) with a1 in D by lia.
    - pose proof (delivers_ptr sz out so n F m a2 s2 0 ltac:(lia) H2) as D. now replace (a2 + 0 * s2) with a2 in D by lia.
    - reflexivity.
    - intros i Hi. apply Hcl; apply ld_pat; try lia; exact Hm.
  Qed.

  Lemma body_ok a1 a2 out n s1 s2 m x y xv yv vx' vy' : 0 <= n -> bytes_ok m ->
    operands_ok sz a1 s1 a2 s2 out sz n ->
    (s1 = sz /\ x = Ptr a1 sz \/ s1 = 0 /\ x = Val (ld sz m a1)) ->
    (s2 = sz /\ y = Ptr a2 sz \/ s2 = 0 /\ y = Val (ld sz m a2)) ->
    (xv = x /\ yv = y /\ vx' = (fun i => ld sz m (a1 + i * s1)) /\ vy' = (fun i => ld sz m (a2 + i * s2))
     \/ xv = y /\ yv = x /\ vx' = (fun i => ld sz m (a2 + i * s2)) /\ vy' = (fun i => ld sz m (a1 + i * s1))) ->
    (forall i, 0 <= i < n -> opv (vx' i) (vy' i) = op (ld sz m (a1 + i * s1)) (ld sz m (a2 + i * s2))) ->
    elementwise sz op a1 s1 a2 s2 out sz n m (body_and_tail sz op opv x y xv yv out n m).
  Proof.
    intros Hn Hm (Ho & H1 & H2) Hx Hy Hxy Hv. pose proof (good_pos sz Hg) as Hs.
    set (F := fun i => op (ld sz m (a1 + i * s1)) (ld sz m (a2 + i * s2))).
    set (X := fun i => ld sz m (a1 + i * s1)) in *. set (Y := fun i => ld sz m (a2 + i * s2)) in *.
    assert (D1 : delivers sz out sz n F m x 0 X /\ (forall p s, x = Ptr p s -> s = sz)).
    { destruct Hx as [[-> ->]|[-> ->]].
      - split; [|intros p s E; now injection E].
        pose proof (delivers_ptr sz out sz n F m a1 sz 0 ltac:(lia) H1) as D. now replace (a1 + 0 * sz) with a1 in D by lia.
      - split; [|intros p s E; discriminate E].
        intros k i m' _ _ _ _. cbn. unfold X. f_equal. lia. }
    assert (D2 : delivers sz out sz n F m y 0 Y /\ (forall p s, y = Ptr p s -> s = sz)).
    { destruct Hy as [[-> ->]|[-> ->]].
      - split; [|intros p s E; now injection E].
        pose proof (delivers_ptr sz out sz n F m a2 sz 0 ltac:(lia) H2) as D. now replace (a2 + 0 * sz) with a2 in D by lia.
      - split; [|intros p s E; discriminate E].
        intros k i m' _ _ _ _. cbn. unfold Y. f_equal. lia. }
    destruct D1 as [D1 S1]. destruct D2 as [D2 S2].
    assert (HP : forall i, 0 <= i < n -> pat sz (F i)) by (intros i Hi; apply Hcl; apply ld_pat; try lia; exact Hm).
    destruct Hxy as [(-> & -> & -> & ->)|(-> & -> & -> & ->)].
    - apply (body_and_tail_upto sz op opv out n F m x y x y X Y X Y); try assumption. reflexivity.
    - apply (body_and_tail_upto sz op opv out n F m x y y x X Y Y X); try assumption. reflexivity.
  Qed.

  Hypothesis Hv : forall x y, pat sz x -> pat sz y -> opv x y = op x y.

  Theorem SimpleMathOpFast_elementwise a1 a2 out n s1 s2 so m :
    0 <= n -> bytes_ok m -> out mod sz = 0 -> operands_ok sz a1 s1 a2 s2 out so n ->
    exists m', SimpleMathOpFast sz op opv a1 a2 out n s1 s2 so m = Some m' /\
               elementwise sz op a1 s1 a2 s2 out so n m m'.
  Proof.
    intros Hn Hm Hal Hop. pose proof (good_pos sz Hg) as Hs.
    assert (HV : forall i, opv (ld sz m (a1 + i * s1)) (ld sz m (a2 + i * s2)) = op (ld sz m (a1 + i * s1)) (ld sz m (a2 + i * s2))).
    { intros i. apply Hv; apply ld_pat; try lia; exact Hm. }
    unfold SimpleMathOpFast.
    destruct ((so =? sz) && negb (s1 =? 0) && negb (s2 =? 0) && (s2 =? sz) && (s1 =? sz)) eqn:E1.
    { assert (so = sz /\ s1 = sz /\ s2 = sz) as (-> & -> & ->) by lia.
      eexists. split; [reflexivity|]. eapply body_ok; [exact Hn|exact Hm|exact Hop|left; split; reflexivity|left; split; reflexivity|left; repeat split; reflexivity|intros i _; apply HV]. }
    destruct ((so =? sz) && (s1 =? 0) && (s2 =? sz)) eqn:E2.
    { assert (so = sz /\ s1 = 0 /\ s2 = sz) as (-> & -> & ->) by lia.
      eexists. split; [reflexivity|]. eapply body_ok; [exact Hn|exact Hm|exact Hop|right; split; reflexivity|left; split; reflexivity|left; repeat split; reflexivity|intros i _; apply HV]. }
    destruct ((so =? sz) && (s2 =? 0) && (s1 =? sz)) eqn:E3.
    { assert (so = sz /\ s2 = 0 /\ s1 = sz) as (-> & -> & ->) by lia.
      destruct (Z.eqb_spec out a1) as [->|Hne].
      - destruct Hop as (Ho & H1 & H2).
        apply (inplace_scalar_upto sz op opv false a1 a2 n (fun i => op (ld sz m (a1 + i * sz)) (ld sz m (a2 + i * 0)))); try assumption.
        + intros i Hi. do 2 f_equal. lia.
        + intros i Hi. apply Hcl; apply ld_pat; try lia; exact Hm.
        + intros i Hi. cbn beta. rewrite <- HV. do 2 f_equal. lia.
      - eexists. split; [reflexivity|]. eapply body_ok; [exact Hn|exact Hm|exact Hop|left; split; reflexivity|right; split; reflexivity|left; repeat split; reflexivity|intros i _; apply HV]. }
    eexists. split; [reflexivity|]. apply scalar_ok; assumption.
  Qed.

  Theorem SimpleMathOpFastSymmetric_elementwise a1 a2 out n s1 s2 so m :
    (forall x y, pat sz x -> pat sz y -> op x y = op y x) ->
    0 <= n -> bytes_ok m -> out mod sz = 0 -> operands_ok sz a1 s1 a2 s2 out so n ->
    exists m', SimpleMathOpFastSymmetric sz op opv a1 a2 out n s1 s2 so m = Some m' /\
               elementwise sz op a1 s1 a2 s2 out so n m m'.
  Proof.
    intros Hcomm Hn Hm Hal Hop. pose proof (good_pos sz Hg) as Hs.
    assert (HV : forall i, opv (ld sz m (a1 + i * s1)) (ld sz m (a2 + i * s2)) = op (ld sz m (a1 + i * s1)) (ld sz m (a2 + i * s2))).
    { intros i. apply Hv; apply ld_pat; try lia; exact Hm. }
    assert (HW : forall i, opv (ld sz m (a2 + i * s2)) (ld sz m (a1 + i * s1)) = op (ld sz m (a1 + i * s1)) (ld sz m (a2 + i * s2))).
    { intros i. rewrite Hcomm; try (apply ld_pat; try lia; exact Hm). apply Hv; apply ld_pat; try lia; exact Hm. }
    unfold SimpleMathOpFastSymmetric.
    destruct ((so =? sz) && (s2 =? sz) && (s1 =? sz)) eqn:E1.
    { assert (so = sz /\ s1 = sz /\ s2 = sz) as (-> & -> & ->) by lia.
      destruct (Z.eqb_spec a1 a2) as [->|Hne]; cbn [negb].
      - eexists. split; [reflexivity|]. eapply body_ok; [exact Hn|exact Hm|exact Hop|left; split; reflexivity|left; split; reflexivity|left; repeat split; reflexivity|intros i _; apply HV].
      - eexists. split; [reflexivity|]. eapply body_ok; [exact Hn|exact Hm|exact Hop|left; split; reflexivity|left; split; reflexivity|left; repeat split; reflexivity|intros i _; apply HV]. }
    destruct ((so =? sz) && (s1 =? 0) && (s2 =? sz)) eqn:E2.
    { assert (so = sz /\ s1 = 0 /\ s2 = sz) as (-> & -> & ->) by lia.
      eexists. split; [reflexivity|]. eapply body_ok; [exact Hn|exact Hm|exact Hop|right; split; reflexivity|left; split; reflexivity|left; repeat split; reflexivity|intros i _; apply HV]. }
    destruct ((so =? sz) && (s2 =? 0) && (s1 =? sz)) eqn:E3.
    { assert (so = sz /\ s2 = 0 /\ s1 = sz) as (-> & -> & ->) by lia.
      destruct (Z.eqb_spec out a1) as [->|Hne].
      - destruct Hop as (Ho & H1 & H2).
        apply (inplace_scalar_upto sz op opv true a1 a2 n (fun i => op (ld sz m (a1 + i * sz)) (ld sz m (a2 + i * 0)))); try assumption.
        + intros i Hi. do 2 f_equal. lia.
        + intros i Hi. apply Hcl; apply ld_pat; try lia; exact Hm.
        + intros i Hi. cbn beta. rewrite <- HW. do 2 f_equal. lia.
      - eexists. split; [reflexivity|]. eapply body_ok; [exact Hn|exact Hm|exact Hop|left; split; reflexivity|right; split; reflexivity|right; repeat split; reflexivity|intros i _; apply HW]. }
    eexists. split; [reflexivity|]. apply scalar_ok; assumption.
  Qed.
End General.

(** ---------- the integer and boolean ufuncs ---------- *)
(** the number a pattern stands for *)
Definition signed (t : ity) : bool := match t with INT8 | INT16 | INT32 | INT64 => true | _ => false end.
Definition number (t : ity) (x : Z) : Z := if signed t then sval (width t) x else x.
(** the elements an array of type [t] holds (NumPy booleans are 0 or 1) *)
Definition valid (t : ity) (x : Z) : Prop := match t with BOOL => x = 0 \/ x = 1 | _ => 0 <= x < 2 ^ width t end.

(** what NumPy documents: r is the answer of ufunc [f] on [x], [y] *)
Definition truth (x : Z) : bool := negb (x =? 0).
Definition answers (f : ufn) (t : ity) (x y r : Z) : Prop :=
  valid t r /\
  match f, t with
  | (ADD | LOGICAL_OR), BOOL => truth r = truth x || truth y
  | (MUL | LOGICAL_AND), BOOL => truth r = truth x && truth y
  | ADD, _ => exists k, number t r = number t x + number t y + k * 2 ^ width t
  | SUB, _ => exists k, number t r = number t x - number t y + k * 2 ^ width t
  | MUL, _ => exists k, number t r = number t x * number t y + k * 2 ^ width t
  | MINIMUM, _ => number t r = Z.min (number t x) (number t y)
  | MAXIMUM, _ => number t r = Z.max (number t x) (number t y)
  | BITWISE_AND, _ => forall b, 0 <= b -> Z.testbit r b = Z.testbit x b && Z.testbit y b
  | BITWISE_OR, _ => forall b, 0 <= b -> Z.testbit r b = Z.testbit x b || Z.testbit y b
  | BITWISE_XOR, _ => forall b, 0 <= b -> Z.testbit r b = xorb (Z.testbit x b) (Z.testbit y b)
  | _, _ => True
  end.

Lemma width_pos t : 0 < width t. Proof. destruct t; reflexivity. Qed.
Lemma isize_good t : good_sz (isize t). Proof. destruct t; unfold good_sz; cbn; lia. Qed.
Lemma pat_width t x : pat (isize t) x <-> 0 <= x < 2 ^ width t.
Proof. destruct t; unfold pat, width; cbn; lia. Qed.

Lemma sval_cong w x : 0 < w -> exists k, sval w x = x + k * 2 ^ w.
Proof. intros Hw. unfold sval. destruct (x <? 2 ^ (w - 1)); [exists 0|exists (-1)]; lia. Qed.

Lemma mod_cong a b M : 0 < M -> (exists k, a = b + k * M) -> a mod M = b mod M.
Proof. intros HM [k ->]. apply Z.mod_add. lia. Qed.

Lemma s_v_add w x y : 0 < w -> v_add w x y = s_add w x y.
Proof.
  intros Hw. unfold v_add, s_add. symmetry. apply mod_cong; [apply Z.pow_pos_nonneg; lia|].
  destruct (sval_cong w x Hw) as [k ->], (sval_cong w y Hw) as [k' ->]. exists (k + k'). ring.
Qed.
Lemma s_v_sub w x y : 0 < w -> v_sub w x y = s_sub w x y.
Proof.
  intros Hw. unfold v_sub, s_sub. symmetry. apply mod_cong; [apply Z.pow_pos_nonneg; lia|].
  destruct (sval_cong w x Hw) as [k ->], (sval_cong w y Hw) as [k' ->]. exists (k - k'). ring.
Qed.

(** ---------- C15 ---------- *)
(** the vector multiply gives exactly the low 64 bits of the product, in every lane *)
Theorem C15_mul_u64_exact : forall x y, 0 <= x < 2 ^ 64 -> 0 <= y < 2 ^ 64 ->
  MUL_OP_256u64 x y = (x * y) mod 2 ^ 64.
Proof.
  intros x y Hx Hy. unfold MUL_OP_256u64, mul_epu32, sll64, srl64, add64, masklo, shifthigh.
  change 4294967295 with (Z.ones 32). rewrite !Z.land_ones by lia.
  rewrite !Z.shiftr_div_pow2, !Z.shiftl_mul_pow2 by lia.
  rewrite !(Z.mod_mod _ (2 ^ 32)) by lia.
  set (a := x mod 2 ^ 32). set (b := y mod 2 ^ 32).
  assert (Hc : 0 <= x / 2 ^ 32 < 2 ^ 32) by (change (2 ^ 64) with (2 ^ 32 * 2 ^ 32) in Hx; split; [apply Z.div_pos; lia|apply Z.div_lt_upper_bound; lia]).
  assert (Hd : 0 <= y / 2 ^ 32 < 2 ^ 32) by (change (2 ^ 64) with (2 ^ 32 * 2 ^ 32) in Hy; split; [apply Z.div_pos; lia|apply Z.div_lt_upper_bound; lia]).
  rewrite (Z.mod_small (x / 2 ^ 32)) by exact Hc. rewrite (Z.mod_small (y / 2 ^ 32)) by exact Hd.
  set (c := x / 2 ^ 32) in *. set (d := y / 2 ^ 32) in *.
  assert (Ex : x = 2 ^ 32 * c + a) by (apply Z.div_mod; lia).
  assert (Ey : y = 2 ^ 32 * d + b) by (apply Z.div_mod; lia).
  rewrite <- Z.add_mod by lia. rewrite Z.add_mod_idemp_r by lia.
  apply mod_cong; [lia|]. exists (- (c * d)). rewrite Ex, Ey. change (2 ^ 64) with (2 ^ 32 * 2 ^ 32). ring.
Qed.
Print Assumptions C15_mul_u64_exact.

(** and, read as signed 64-bit numbers, also the low 64 bits of the signed product *)
Corollary C15_mul_signed_reading : forall x y, 0 <= x < 2 ^ 64 -> 0 <= y < 2 ^ 64 ->
  exists k, sval 64 (MUL_OP_256u64 x y) = sval 64 x * sval 64 y + k * 2 ^ 64.
Proof.
  intros x y Hx Hy. rewrite C15_mul_u64_exact by assumption.
  destruct (sval_cong 64 ((x * y) mod 2 ^ 64)) as [k ->]; [lia|].
  destruct (sval_cong 64 x) as [a ->]; [lia|]. destruct (sval_cong 64 y) as [b ->]; [lia|].
  pose proof (Z.div_mod (x * y) (2 ^ 64) ltac:(lia)) as E.
  exists (k - x * y / 2 ^ 64 - (x * b + a * y + a * b * 2 ^ 64)).
  replace ((x * y) mod 2 ^ 64) with (x * y - 2 ^ 64 * (x * y / 2 ^ 64)) by lia. ring.
Qed.

Example C15_nonvacuous : MUL_OP_256u64 18446744073709551615 18446744073709551614 = 2
  /\ MUL_OP_256u64 4294967297 8589934593 = 12884901889.
Proof. vm_compute. split; reflexivity. Qed.

(** ---------- the table: lane operation = scalar operation, and it is NumPy's ---------- *)
Lemma bits_bound x w : 0 <= w -> 0 <= x -> (forall b, w <= b -> Z.testbit x b = false) -> x < 2 ^ w.
Proof.
  intros Hw Hx H. destruct (Z.eq_dec x 0) as [->|Hne]; [apply Z.pow_pos_nonneg; lia|].
  apply Z.log2_lt_pow2; [lia|]. destruct (Z.lt_ge_cases (Z.log2 x) w) as [C|C]; [exact C|exfalso].
  specialize (H (Z.log2 x) C). rewrite Z.bit_log2 in H by lia. discriminate.
Qed.
Lemma bits_high x w b : 0 <= x < 2 ^ w -> 0 <= w <= b -> Z.testbit x b = false.
Proof.
  intros Hx Hb. destruct (Z.eq_dec x 0) as [->|Hne]; [apply Z.bits_0|].
  apply Z.bits_above_log2; [lia|]. apply Z.log2_lt_pow2; [lia|].
  apply Z.lt_le_trans with (2 ^ w); [lia|apply Z.pow_le_mono_r; lia].
Qed.
Lemma logic_bound (g : Z -> Z -> Z) (h : bool -> bool -> bool) w x y : 0 <= w -> h false false = false ->
  (forall a b n, Z.testbit (g a b) n = h (Z.testbit a n) (Z.testbit b n)) ->
  (forall a b, 0 <= a -> 0 <= b -> 0 <= g a b) ->
  0 <= x < 2 ^ w -> 0 <= y < 2 ^ w -> 0 <= g x y < 2 ^ w.
Proof.
  intros Hw Hh Hs Hp Hx Hy. pose proof (Hp x y ltac:(lia) ltac:(lia)). split; [lia|]. apply bits_bound; [lia|lia|].
  intros b Hb. rewrite Hs, (bits_high x w b), (bits_high y w b) by lia. exact Hh.
Qed.

Ltac tcase f t := destruct f, t; cbn [table]; intros Hent; try discriminate Hent; injection Hent as <-.

Lemma lane_and w x y : 0 <= w -> 0 <= x < 2 ^ w -> 0 <= y < 2 ^ w -> 0 <= Z.land x y < 2 ^ w.
Proof. intros Hw. apply (logic_bound Z.land andb); auto; try (intros; apply Z.land_spec). intros a b Ha Hb. apply Z.land_nonneg. lia. Qed.
Lemma lane_or w x y : 0 <= w -> 0 <= x < 2 ^ w -> 0 <= y < 2 ^ w -> 0 <= Z.lor x y < 2 ^ w.
Proof. intros Hw. apply (logic_bound Z.lor orb); auto; try (intros; apply Z.lor_spec). intros a b Ha Hb. apply Z.lor_nonneg. lia. Qed.
Lemma lane_xor w x y : 0 <= w -> 0 <= x < 2 ^ w -> 0 <= y < 2 ^ w -> 0 <= Z.lxor x y < 2 ^ w.
Proof. intros Hw. apply (logic_bound Z.lxor xorb); auto; try (intros; apply Z.lxor_spec). intros a b Ha Hb. apply Z.lxor_nonneg. lia. Qed.

(** the parts of an entry *)
Definition scalar_of (e : entry) := match e with Sym o _ | Plain o _ => o end.
Definition lane_of (e : entry) := match e with Sym _ v | Plain _ v => v end.

Lemma sval_range w x : 0 < w -> 0 <= x < 2 ^ w -> - 2 ^ (w - 1) <= sval w x < 2 ^ (w - 1).
Proof.
  intros Hw Hx. assert (E : 2 ^ w = 2 * 2 ^ (w - 1)) by (rewrite <- Z.pow_succ_r by lia; f_equal; lia).
  unfold sval. destruct (Z.ltb_spec x (2 ^ (w - 1))); lia.
Qed.
Lemma sval_inj w x y : 0 < w -> 0 <= x < 2 ^ w -> 0 <= y < 2 ^ w -> sval w x = sval w y -> x = y.
Proof.
  intros Hw Hx Hy. assert (E : 2 ^ w = 2 * 2 ^ (w - 1)) by (rewrite <- Z.pow_succ_r by lia; f_equal; lia).
  unfold sval. destruct (Z.ltb_spec x (2 ^ (w - 1))), (Z.ltb_spec y (2 ^ (w - 1))); lia.
Qed.

Lemma table_ok f t e : table f t = Some e ->
  closed_op (isize t) (scalar_of e) /\
  (forall x y, pat (isize t) x -> pat (isize t) y -> lane_of e x y = scalar_of e x y) /\
  (forall op opv, e = Sym op opv -> forall x y, op x y = op y x).
Proof.
  assert (HW : 0 < width t) by apply width_pos.
  assert (HP : 0 < 2 ^ width t) by (apply Z.pow_pos_nonneg; lia).
  assert (Bm : forall z, 0 <= z mod 2 ^ width t < 2 ^ width t) by (intros z; apply Z.mod_pos_bound; exact HP).
  intros Hent. unfold closed_op.
  split; [|split].
  - intros x y Hx Hy. rewrite pat_width in *. revert Hent.
    tcase f t; cbn [scalar_of]; try (apply Bm); try (apply lane_and; lia); try (apply lane_or; lia); try (apply lane_xor; lia);
      unfold s_min, s_max; match goal with |- context [if ?c then _ else _] => destruct c end; assumption.
  - intros x y Hx Hy. rewrite pat_width in *. revert Hent.
    tcase f t; cbn [scalar_of lane_of]; try reflexivity;
      try (apply s_v_add; lia); try (apply s_v_sub; lia);
      try (apply C15_mul_u64_exact; assumption);
      unfold v_min, s_min, v_max, s_max;
      match goal with |- context [sval ?w x] => pose proof (sval_inj w x y HW Hx Hy) as HI end;
      repeat match goal with |- context [if ?c then _ else _] => destruct c eqn:? end; try reflexivity; try lia;
      apply HI || (symmetry; apply HI); lia.
  - intros op opv He x y. revert Hent.
    tcase f t; try discriminate He; injection He as <- <-; try apply Z.lor_comm; try apply Z.land_comm; try apply Z.lxor_comm;
      unfold s_add, s_mul, u_mul; f_equal; ring.
Qed.

Lemma sval_mod w z : 0 < w -> exists k, sval w (z mod 2 ^ w) = z + k * 2 ^ w.
Proof.
  intros Hw. destruct (sval_cong w (z mod 2 ^ w) Hw) as [k ->].
  pose proof (Z.div_mod z (2 ^ w)) as E. assert (0 < 2 ^ w) by (apply Z.pow_pos_nonneg; lia).
  exists (k - z / 2 ^ w). lia.
Qed.

(** every entry's scalar operation is what NumPy documents for that ufunc and type *)
Theorem table_is_numpy f t e : table f t = Some e ->
  forall x y, valid t x -> valid t y -> answers f t x y (scalar_of e x y).
Proof.
  assert (HW : 0 < width t) by apply width_pos.
  assert (HP : 0 < 2 ^ width t) by (apply Z.pow_pos_nonneg; lia).
  assert (Bm : forall z, 0 <= z mod 2 ^ width t < 2 ^ width t) by (intros z; apply Z.mod_pos_bound; exact HP).
  intros Hent x y Hx Hy. unfold answers. split.
  - revert Hent. tcase f t; cbn [scalar_of valid] in *;
      try (apply Bm); try (apply lane_and; lia); try (apply lane_or; lia); try (apply lane_xor; lia);
      try (destruct Hx as [->| ->], Hy as [->| ->]; vm_compute; solve [auto]);
      unfold s_min, s_max; match goal with |- context [if ?c then _ else _] => destruct c end; assumption.
  - revert Hent. tcase f t; cbn [scalar_of valid] in *;
      try (destruct Hx as [->| ->], Hy as [->| ->]; reflexivity);
      try (intros b Hb; first [apply Z.land_spec|apply Z.lor_spec|apply Z.lxor_spec]);
      unfold number, s_add, s_sub, s_mul; cbn [signed];
      try (apply sval_mod; exact HW);
      try (unfold s_min, s_max; match goal with |- context [if ?c then _ else _] => destruct c eqn:? end; lia).
    unfold u_mul. pose proof (Z.div_mod (x * y) (2 ^ width UINT64)) as E.
    exists (- (x * y / 2 ^ width UINT64)). lia.
Qed.

(** C14: every hooked integer or boolean ufunc, called without threads on any length, strides and operands NumPy
    hands over: no aligned access faults, output i is the documented answer on the original inputs i, and no
    other byte is written.  [nop] is NumPy's own operation, used when the overlap guard chooses NumPy's loop. *)
Theorem C14_integer_ufuncs :
  forall (f : ufn) (t : ity) (e : entry) (nop : Z -> Z -> Z) (a1 a2 out n s1 s2 so : Z) (m : bytes),
    table f t = Some e ->
    (forall x y, pat (isize t) x -> pat (isize t) y -> nop x y = scalar_of e x y) ->
    0 <= n -> bytes_ok m -> out mod isize t = 0 ->
    operands_ok (isize t) a1 s1 a2 s2 out so n ->
    (forall i, 0 <= i < n -> valid t (ld (isize t) m (a1 + i * s1)) /\ valid t (ld (isize t) m (a2 + i * s2))) ->
    exists m', BinaryCall f t nop a1 a2 out n s1 s2 so m = Some m' /\
      (forall i, 0 <= i < n ->
         answers f t (ld (isize t) m (a1 + i * s1)) (ld (isize t) m (a2 + i * s2)) (ld (isize t) m' (out + i * so))) /\
      (forall x, (forall i, 0 <= i < n -> ~ (out + i * so <= x < out + i * so + isize t)) -> m' x = m x).
Proof.
  intros f t e nop a1 a2 out n s1 s2 so m Hent Hnop Hn Hm Hal Hop Hvalid.
  destruct (table_ok f t e Hent) as (Hcl & Hv & Hcomm). pose proof (isize_good t) as Hg.
  assert (G : exists m', BinaryCall f t nop a1 a2 out n s1 s2 so m = Some m' /\
     elementwise (isize t) (scalar_of e) a1 s1 a2 s2 out so n m m').
  { unfold BinaryCall. rewrite Hent. destruct (overlap_guard a1 a2 out).
    - eexists. split; [reflexivity|].
      assert (Hcn : closed_op (isize t) nop) by (intros x y Hx Hy; rewrite Hnop by assumption; apply Hcl; assumption).
      destruct (scalar_ok (isize t) nop nop Hg Hcn a1 a2 out n s1 s2 so m Hn Hm Hop) as [S1 S2].
      split; [|exact S2]. intros i Hi. rewrite S1 by exact Hi. pose proof (good_pos _ Hg).
      apply Hnop; apply ld_pat; try lia; exact Hm.
    - destruct e as [op opv|op opv]; cbn [run_entry scalar_of lane_of] in *.
      + apply SimpleMathOpFastSymmetric_elementwise; try assumption. intros x y _ _. eapply Hcomm. reflexivity.
      + apply SimpleMathOpFast_elementwise; assumption. }
  destruct G as (m' & E & E1 & E2). exists m'. split; [exact E|]. split; [|exact E2].
  intros i Hi. rewrite E1 by exact Hi. apply table_is_numpy; try assumption; apply Hvalid; exact Hi.
Qed.
Print Assumptions C14_integer_ufuncs.

(** Hypotheses are met by np.subtract on 1000 int32 in place with a scalar, output at an odd multiple of 4, and by
    three disjoint arrays. *)
Example C14_nonvacuous :
  operands_ok 4 4100 4 96 0 4100 4 1000 /\ 4100 mod isize INT32 = 0 /\ (exists e, table SUB INT32 = Some e)
  /\ operands_ok 1 1000 1 2000 1 5001 1 777.
Proof.
  split.
  { unfold operands_ok, outs_separate, no_clobber, disj. repeat split; intros i j; intros; lia. }
  split; [reflexivity|]. split; [eexists; reflexivity|].
  apply operands_disjoint_ok; lia.
Qed.

(** and the kernels really run: 11 int32 elements at address 4, a[i] -= 5 in place (peel 7, tail 4) *)
Example C14_run :
  let m := fold_left (fun m i => st 4 m (4 + i * 4) (i * 10)) (zrange 0 11) (st 4 (fun _ => 0) 400 5) in
  exists m', BinaryCall SUB INT32 (s_sub 32) 4 400 4 11 4 0 4 m = Some m' /\
   map (fun i => sval 32 (ld 4 m' (4 + i * 4))) (zrange 0 11) = map (fun i => i * 10 - 5) (zrange 0 11).
Proof. cbv zeta. eexists. split; [vm_compute; reflexivity|vm_compute; reflexivity]. Qed.

(** The alignment hypothesis is needed: an int32 array at an address that is not a multiple of 4 makes the in-place
    kernel perform an aligned access at an unaligned address (fault). *)
Theorem C14_misaligned_faults :
  exists m, SimpleMathOpFast 4 (s_sub 32) (v_sub 32) 1 400 1 20 4 0 4 m = None.
Proof. exists (fun _ => 0). vm_compute. reflexivity. Qed.

(** ---------- unary kernels ---------- *)
Lemma fold_ext {A B} (f g : A -> B -> A) l : (forall a b, f a b = g a b) -> forall a, fold_left f l a = fold_left g l a.
Proof. intros H. induction l as [|x l IH]; intros a; [reflexivity|]. cbn. rewrite H. apply IH. Qed.

Definition elementwise1 (sz : Z) (op : Z -> Z) (a s out so n : Z) (m m' : bytes) : Prop :=
  (forall i, 0 <= i < n -> ld sz m' (out + i * so) = op (ld sz m (a + i * s))) /\
  (forall x, (forall i, 0 <= i < n -> ~ (out + i * so <= x < out + i * so + sz)) -> m' x = m x).

Theorem C14_unary :
  forall sz (op opv : Z -> Z) a out n s so m,
    good_sz sz -> (forall x, pat sz x -> pat sz (op x)) -> (forall x, pat sz x -> opv x = op x) ->
    0 <= n -> so <> 0 -> bytes_ok m -> outs_separate sz out so n -> no_clobber sz a s out so n ->
    elementwise1 sz op a s out so n m (UnaryOpFast sz op opv a out n s so m).
Proof.
  intros sz op opv a out n s so m Hg Hcl Hv Hn Hso Hm Ho Hc.
  set (op2 := fun x (_ : Z) => op x). set (opv2 := fun x (_ : Z) => opv x).
  assert (Hcl2 : closed_op sz op2) by (intros x y Hx _; apply Hcl, Hx).
  pose proof (good_pos sz Hg) as Hs. destruct (perReg_props sz Hg) as (HL & Lpos & Hland).
  assert (S : elementwise sz op2 a s a s out so n m (scalar_loop sz op2 (Ptr a s) (Ptr a s) out so n m)).
  { apply scalar_ok; try assumption. repeat split; assumption. }
  unfold UnaryOpFast. replace (while_rounds so n) with n by (unfold while_rounds; now destruct (Z.eqb_spec so 0)).
  destruct ((sz =? so) && (sz =? s) && (perReg sz <=? n)) eqn:E; [|exact S].
  assert (so = sz /\ s = sz /\ perReg sz <= n) as (-> & -> & Hle) by lia.
  assert (B : elementwise sz op2 a sz a sz out sz n m (body_and_tail sz op2 opv2 (Ptr a sz) (Ptr a sz) (Ptr a sz) (Ptr a sz) out n m)).
  { eapply body_ok; [exact Hg|exact Hcl2|exact Hn|exact Hm|repeat split; assumption|left; split; reflexivity|left; split; reflexivity
      |left; repeat split; reflexivity|].
    intros i _. unfold opv2, op2. apply Hv, ld_pat; [lia|exact Hm]. }
  unfold body_and_tail in B. replace (perReg sz <=? n) with true in B by (symmetry; apply Z.leb_le; exact Hle).
  rewrite Hland in B by exact Hn.
  set (q := n / perReg sz) in *.
  assert (Er : (out + sz * n - (out + 32 * q)) / sz = n mod perReg sz).
  { pose proof (Z.div_mod n (perReg sz) ltac:(lia)) as HD. fold q in HD. set (r := n mod perReg sz) in *.
    replace (out + sz * n - (out + 32 * q)) with (r * sz).
    - apply Z.div_mul. lia.
    - rewrite HD, <- HL. ring. }
  rewrite Er.
  assert (EV : fold_left (fun m k => storev sz m (out + 32 * k) (map opv (loadv sz m (a + 32 * k)))) (zrange 0 q) m
     = vector_loop sz opv2 (Ptr a sz) (Ptr a sz) out q m).
  { unfold vector_loop. apply fold_ext. intros m' k. f_equal. cbn [rdv].
    generalize (loadv sz m' (a + 32 * k)). intros l. induction l as [|x l IH]; [reflexivity|].
    cbn [map lanes2]. rewrite IH. reflexivity. }
  rewrite EV. exact B.
Qed.
Print Assumptions C14_unary.

(** hypotheses: np.negative on 100 int64 in place *)
Example C14_unary_nonvacuous :
  outs_separate 8 4096 8 100 /\ no_clobber 8 4096 8 4096 8 100 /\
  (forall x, pat 8 x -> pat 8 ((- x) mod 2 ^ 64)).
Proof.
  split; [|split].
  - intros i j Hi Hj Hne. unfold disj. lia.
  - intros i j Hj Hi. unfold disj. lia.
  - intros x _. unfold pat. change (256 ^ 8) with (2 ^ 64). apply Z.mod_pos_bound. lia.
Qed.
