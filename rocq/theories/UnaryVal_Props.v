(** UnaryVal_Props.v - C53 (integer unary ufuncs; logical_not, sign, signbit), C43 (negative and absolute of floats). *)
From Verif Require Import Base Kernel_Model Kernel_Proofs Kernel_Props Float_Model Compare_Model Compare_Proofs Compare_Props Unary_Model Unary_Proofs Unary_Props.

(** ---------- what each output holds, whatever the operation ---------- *)
(** element i of a contiguous call is in the vector body *)
Definition in_body (sz s so n i : Z) : bool := (sz =? so) && (sz =? s) && (i <? perReg sz * (n / perReg sz)).

Lemma slow_upto sz op a out n s so F m0 base cnt m : 0 <= sz -> outs_separate sz out so n -> no_clobber sz a s out so n ->
  0 <= base -> 0 <= cnt -> base + cnt <= n -> (forall i, 0 <= i < n -> pat sz (F i)) ->
  (forall i, base <= i < n -> F i = op (ld sz m0 (a + i * s))) ->
  upto sz out so F base m0 m ->
  upto sz out so F (base + cnt) m0
    (fold_left (fun m i => st sz m (out + base * so + i * so) (op (ld sz m (a + base * s + i * s)))) (zrange 0 cnt) m).
Proof.
  intros Hs Ho Hc Hb Hcnt Hle Hp HF U.
  apply (zrange_app_ind (fun k m' => upto sz out so F (base + k) m0 m')); [exact Hcnt|now rewrite Z.add_0_r|].
  intros k m' Hk U'.
  replace (a + base * s + k * s) with (a + (base + k) * s) by ring.
  rewrite (upto_read sz out so F n (base + k) m0 m' a s (base + k)) by (try lia; assumption).
  rewrite <- HF by lia. replace (out + base * so + k * so) with (out + (base + k) * so) by ring.
  replace (base + (k + 1)) with (base + k + 1) by lia. eapply upto_step; eauto; try (apply Hp); lia.
Qed.

Lemma unary_split sz (op opv : Z -> Z) a out n s so m :
  good_sz sz -> (forall x, pat sz x -> pat sz (op x)) -> (forall x, pat sz x -> pat sz (opv x)) ->
  0 <= n -> so <> 0 -> bytes_ok m -> outs_separate sz out so n -> no_clobber sz a s out so n ->
  upto sz out so (fun i => (if in_body sz s so n i then opv else op) (ld sz m (a + i * s))) n m (UnaryOpFast sz op opv a out n s so m).
Proof.
  intros Hg Hcl Hv Hn Hso Hm Ho Hc. pose proof (good_pos sz Hg) as Hs. destruct (perReg_props sz Hg) as (HL & Lpos & Hland).
  set (F := fun i => _). assert (HP : forall i, 0 <= i < n -> pat sz (F i)).
  { intros i _. unfold F. pose proof (ld_pat sz m (a + i * s) ltac:(lia) Hm). destruct (in_body sz s so n i); auto. }
  unfold UnaryOpFast. pose proof (Z.div_mod n (perReg sz) ltac:(lia)) as HD. pose proof (Z.mod_pos_bound n (perReg sz) Lpos) as HM.
  assert (Hq : 0 <= n / perReg sz) by (apply Z.div_pos; lia).
  destruct ((sz =? so) && (sz =? s) && (perReg sz <=? n)) eqn:E.
  - assert (so = sz /\ s = sz /\ perReg sz <= n) as (-> & -> & Hle) by lia.
    set (q := n / perReg sz) in *.
    assert (Er : (out + sz * n - (out + 32 * q)) / sz = n mod perReg sz).
    { set (r := n mod perReg sz) in *. replace (out + sz * n - (out + 32 * q)) with (r * sz); [apply Z.div_mul; lia|rewrite HD, <- HL; ring]. }
    rewrite Er. set (m1 := fold_left _ (zrange 0 q) m).
    assert (U1 : upto sz out sz F (q * perReg sz) m m1).
    { apply (zrange_app_ind (fun k m' => upto sz out sz F (k * perReg sz) m m')); [exact Hq|apply upto_0|].
      intros k m' Hk U'.
      replace (map opv (loadv sz m' (a + 32 * k))) with (map F (zseq (k * perReg sz) (Z.to_nat (perReg sz)))).
      - replace (out + 32 * k) with (out + (k * perReg sz) * sz) by (rewrite <- HL; ring).
        replace ((k + 1) * perReg sz) with (k * perReg sz + Z.of_nat (Z.to_nat (perReg sz))) by lia.
        apply (storev_upto sz out F n m); try assumption; try nia; lia.
      - unfold loadv. rewrite map_map, map_zseq_shift. unfold zrange. rewrite Z.sub_0_r. apply map_ext_in. intros l Hl. apply zseq_In in Hl.
        unfold F, in_body. rewrite !Z.eqb_refl. fold q. replace (k * perReg sz + l <? perReg sz * q) with true by (symmetry; apply Z.ltb_lt; nia).
        cbn [andb]. f_equal. replace (a + 32 * k + l * sz) with (a + (k * perReg sz + l) * sz) by (rewrite <- HL; ring).
        symmetry. eapply (upto_read sz out sz F n (k * perReg sz)); try assumption; try nia; lia. }
    replace (out + 32 * q) with (out + q * perReg sz * sz) by (rewrite <- HL; ring).
    replace (a + 32 * q) with (a + q * perReg sz * sz) by (rewrite <- HL; ring).
    replace n with (q * perReg sz + n mod perReg sz) at 1 by lia.
    apply (slow_upto sz op a out n sz sz F m); try assumption; try nia; try lia.
    intros i Hi. unfold F, in_body. fold q. replace (i <? perReg sz * q) with false by (symmetry; apply Z.ltb_ge; lia).
    rewrite andb_false_r. reflexivity.
  - replace (while_rounds so n) with n by (unfold while_rounds; now destruct (Z.eqb_spec so 0)).
    pose proof (slow_upto sz op a out n s so F m 0 n m ltac:(lia) Ho Hc ltac:(lia) Hn ltac:(lia) HP) as S.
    rewrite !Z.add_0_l in S. replace (out + 0 * so) with out in S by lia. replace (a + 0 * s) with a in S by lia. apply S; [|apply upto_0].
    intros i Hi. unfold F, in_body. destruct ((sz =? so) && (sz =? s)) eqn:E2; cbn [andb] in *; [|reflexivity].
    rewrite Z.div_small by lia. replace (i <? perReg sz * 0) with false by (symmetry; apply Z.ltb_ge; lia). reflexivity.
Qed.

Lemma slow_elementwise sz op a out n s so m : 0 <= sz -> (forall x, pat sz x -> pat sz (op x)) ->
  0 <= n -> so <> 0 -> bytes_ok m -> outs_separate sz out so n -> no_clobber sz a s out so n ->
  elementwise1 sz op a s out so n m (slow sz sz op a out n s so m).
Proof.
  intros Hs Hcl Hn Hso Hm Ho Hc. unfold slow. replace (while_rounds so n) with n by (unfold while_rounds; now destruct (Z.eqb_spec so 0)).
  pose proof (slow_upto sz op a out n s so (fun i => op (ld sz m (a + i * s))) m 0 n m ltac:(lia) Ho Hc ltac:(lia) Hn ltac:(lia)) as S.
  rewrite !Z.add_0_l in S. replace (out + 0 * so) with out in S by lia. replace (a + 0 * s) with a in S by lia. apply S; [| |apply upto_0].
  - intros i _. apply Hcl, ld_pat; [lia|exact Hm].
  - reflexivity.
Qed.

(** ---------- C53: integers ---------- *)
(** NumPy's answer r of a unary ufunc on integer x of type t *)
Definition answers1 (u : uop) (t : ity) (x r : Z) : Prop :=
  valid t r /\
  match u, t with
  | ABS, _ => exists k, number t r = Z.abs (number t x) + k * 2 ^ width t
  | NEGATIVE, _ => exists k, number t r = - number t x + k * 2 ^ width t
  | SIGN, _ => number t r = Z.sgn (number t x)
  | INVERT, BOOL => truth r = negb (truth x)
  | INVERT, _ => forall b, 0 <= b < width t -> Z.testbit r b = negb (Z.testbit x b)
  | _, _ => False
  end.
Definition answered1 (u : uop) (t : ity) (a s out so n : Z) (m m' : bytes) : Prop :=
  (forall i, 0 <= i < n -> answers1 u t (ld (isize t) m (a + i * s)) (ld (isize t) m' (out + i * so))) /\
  (forall b, (forall i, 0 <= i < n -> ~ (out + i * so <= b < out + i * so + isize t)) -> m' b = m b).
(** the ufuncs and types pnumpy replaces *)
Definition replaced1 (u : uop) (t : ity) : Prop :=
  match u, t with
  | (ABS | NEGATIVE | SIGN), (INT64 | INT32 | INT16 | INT8) => True
  | INVERT, _ => True
  | _, _ => False
  end.

Definition uop_scalar (u : uop) (t : ity) : Z -> Z :=
  match u, t with
  | ABS, _ => i_abs (width t) | NEGATIVE, _ => i_neg (width t) | SIGN, _ => i_sign (width t)
  | INVERT, BOOL => b_invert | _, _ => i_invert (width t) end.

Lemma pat_w t x : pat (isize t) x <-> 0 <= x < 2 ^ width t.
Proof. unfold pat, width. destruct t; reflexivity. Qed.
Lemma num_mod t r e : signed t = true -> r = e mod 2 ^ width t -> exists k, number t r = e + k * 2 ^ width t.
Proof.
  intros Hs ->. unfold number. rewrite Hs. assert (W : 0 < 2 ^ width t) by (destruct t; reflexivity).
  pose proof (Z.div_mod e (2 ^ width t) ltac:(lia)). unfold sval.
  destruct (_ <? _); [exists (- (e / 2 ^ width t))|exists (- (e / 2 ^ width t) - 1)]; lia.
Qed.

Lemma ity_eqb_bool t : t = BOOL \/ t <> BOOL.
Proof. destruct t; (now left) || (right; discriminate). Qed.
Lemma scalar_answers u t x : replaced1 u t -> valid t x -> answers1 u t x (uop_scalar u t x).
Proof.
  intros R V. assert (W : 0 < 2 ^ width t) by (destruct t; reflexivity).
  assert (VM : forall e, t <> BOOL -> valid t (e mod 2 ^ width t)).
  { intros e Ht. pose proof (Z.mod_pos_bound e _ W). destruct t; try congruence; assumption. }
  destruct u; try (destruct R; fail).
  - assert (Ht : t <> BOOL /\ signed t = true) by (destruct t; try (destruct R; fail); (split; [discriminate|reflexivity])).
    destruct Ht as [Ht Hs]. assert (N : number t x = sval (width t) x) by (unfold number; now rewrite Hs).
    split; [unfold uop_scalar, i_abs; destruct (_ <? _); [apply VM, Ht|exact V]|].
    change (exists k, number t (i_abs (width t) x) = Z.abs (number t x) + k * 2 ^ width t).
    unfold i_abs. destruct (Z.ltb_spec (sval (width t) x) 0) as [L|L].
    + destruct (num_mod t _ (- sval (width t) x) Hs eq_refl) as [k Hk]. exists k. rewrite Hk, N. lia.
    + exists 0. rewrite N in *. lia.
  - assert (Ht : t <> BOOL /\ signed t = true) by (destruct t; try (destruct R; fail); (split; [discriminate|reflexivity])).
    destruct Ht as [Ht Hs]. assert (N : number t x = sval (width t) x) by (unfold number; now rewrite Hs).
    split; [apply VM, Ht|]. destruct (num_mod t _ (- sval (width t) x) Hs eq_refl) as [k Hk]. exists k. cbn [uop_scalar]. unfold i_neg. rewrite Hk, N. reflexivity.
  - assert (Ht : t <> BOOL /\ signed t = true) by (destruct t; try (destruct R; fail); (split; [discriminate|reflexivity])).
    destruct Ht as [Ht Hs]. assert (N : number t x = sval (width t) x) by (unfold number; now rewrite Hs).
    split; [apply VM, Ht|]. cbn [uop_scalar]. unfold i_sign. rewrite N. unfold number. rewrite Hs.
    assert (E : 2 <= 2 ^ (width t - 1) /\ 2 ^ width t = 2 * 2 ^ (width t - 1)) by (destruct t; try discriminate Hs; (split; [vm_compute; discriminate|reflexivity])).
    destruct E as [E1 E2]. unfold sval at 1.
    destruct (Z.ltb_spec 0 (sval (width t) x)) as [A|A]; [|destruct (Z.ltb_spec (sval (width t) x) 0) as [B|B]].
    + rewrite Z.mod_small by lia. destruct (Z.ltb_spec 1 (2 ^ (width t - 1))); lia.
    + replace (-1) with (2 ^ width t - 1 + (-1) * 2 ^ width t) by lia. rewrite Z.mod_add by lia. rewrite Z.mod_small by lia.
      destruct (Z.ltb_spec (2 ^ width t - 1) (2 ^ (width t - 1))); lia.
    + rewrite Z.mod_0_l by lia. destruct (Z.ltb_spec 0 (2 ^ (width t - 1))); lia.
  - destruct (ity_eqb_bool t) as [->|Ht].
    + cbn in *. destruct V as [-> | ->]; split; cbn; auto.
    + assert (E : uop_scalar INVERT t = i_invert (width t)) by (destruct t; try reflexivity; congruence). rewrite E.
      split; [apply VM, Ht|].
      assert (G : forall b, 0 <= b < width t -> Z.testbit (i_invert (width t) x) b = negb (Z.testbit x b)).
      { intros b Hb. unfold i_invert. rewrite Z.mod_pow2_bits_low by lia. apply Z.lnot_spec; lia. }
      destruct t; try exact G; congruence.
Qed.

Lemma lane_abs w x : 0 < w -> 0 <= x < 2 ^ w -> v_abs w x = i_abs w x.
Proof.
  intros Hw Hx. unfold v_abs, i_abs, sval. assert (E : 2 ^ w = 2 * 2 ^ (w - 1)) by (rewrite <- Z.pow_succ_r by lia; f_equal; lia).
  destruct (Z.ltb_spec x (2 ^ (w - 1))) as [L|L].
  - destruct (Z.ltb_spec x 0); [lia|reflexivity].
  - destruct (Z.ltb_spec (x - 2 ^ w) 0); [|lia]. rewrite Z.mod_small; lia.
Qed.
Lemma lane_neg w x : 0 < w -> 0 <= x < 2 ^ w -> v_neg w x = i_neg w x.
Proof.
  intros Hw Hx. assert (W : 0 < 2 ^ w) by (apply Z.pow_pos_nonneg; lia). unfold v_neg, i_neg, sval.
  destruct (Z.ltb_spec x (2 ^ (w - 1))) as [L|L]; [f_equal; lia|].
  replace (- (x - 2 ^ w)) with (0 - x + 1 * 2 ^ w) by lia. now rewrite Z.mod_add by lia.
Qed.
Lemma scalar_closed u t x : pat (isize t) x -> pat (isize t) (uop_scalar u t x).
Proof.
  rewrite !pat_w. intros H. assert (W : 0 < 2 ^ width t) by (destruct t; reflexivity).
  assert (M : forall e, 0 <= e mod 2 ^ width t < 2 ^ width t) by (intros e; apply Z.mod_pos_bound, W).
  assert (B : 0 <= x < 256 -> 0 <= b_invert x < 256).
  { intros Hx. unfold b_invert. pose proof (Z.div_mod x 2 ltac:(lia)) as D. pose proof (Z.mod_pos_bound x 2 ltac:(lia)) as R.
    destruct (Z.eq_dec (x mod 2) 0) as [E|E].
    - assert (G : Z.lxor x 1 = x + 1).
      { rewrite D, E. rewrite <- Z.add_nocarry_lxor; [lia|]. rewrite Z.add_0_r. change 1 with (Z.ones 1). rewrite Z.land_ones by lia. rewrite Z.mul_comm. apply Z.mod_mul. discriminate. }
      rewrite G. lia.
    - assert (G : Z.lxor (x - 1) 1 = x).
      { rewrite <- Z.add_nocarry_lxor; [lia|]. change 1 with (Z.ones 1) at 2. rewrite Z.land_ones by lia. replace (x - 1) with (x / 2 * 2) by lia. apply Z.mod_mul. discriminate. }
      rewrite <- G. rewrite Z.lxor_assoc, Z.lxor_nilpotent, Z.lxor_0_r. lia. }
  destruct u; cbn [uop_scalar]; try (apply M); try (destruct t; apply M).
  - unfold i_abs. destruct (_ <? _); [apply M|exact H].
  - destruct t; try apply M. apply B, H.
Qed.

Lemma unary_ints u t a out n s so m f : replaced1 u t -> 0 <= n -> so <> 0 -> bytes_ok m ->
  outs_separate (isize t) out so n -> no_clobber (isize t) a s out so n -> GetUnaryOp u (I t) = Some f ->
  elementwise1 (isize t) (uop_scalar u t) a s out so n m (f a out n s so m).
Proof.
  intros R Hn Hso Hm Ho Hc Hf.
  assert (SL : elementwise1 (isize t) (uop_scalar u t) a s out so n m (slow (isize t) (isize t) (uop_scalar u t) a out n s so m)).
  { apply slow_elementwise; try assumption; [destruct t; cbn; lia|apply scalar_closed]. }
  assert (FA : forall opv, (forall x, 0 <= x < 2 ^ width t -> opv x = uop_scalar u t x) ->
    elementwise1 (isize t) (uop_scalar u t) a s out so n m (UnaryOpFast (isize t) (uop_scalar u t) opv a out n s so m)).
  { intros opv Hv. apply C14_unary; try assumption; [destruct t; cbn; unfold good_sz; lia|apply scalar_closed|].
    intros x Hx. apply Hv, pat_w, Hx. }
  destruct u, t; try (destruct R; fail); cbn [GetUnaryOp] in Hf; injection Hf as <-;
    try exact SL; apply FA; intros x Hx; first [apply lane_abs|apply lane_neg]; try exact Hx; reflexivity.
Qed.

(** C53.  np.abs, np.negative, np.sign (signed integers) and np.invert (every integer type and bool), on arrays of every
    length, stride and content: each output element is NumPy's answer on the input element at that position (|x|, -x and
    sign(x), wrapping once at the most negative number as NumPy does; bitwise complement; logical complement on bool),
    and no other byte changes.  Input and output may be the same array. *)
Theorem C53_integer_unary : forall u t numpy a out n s so m,
  replaced1 u t -> 0 <= n -> bytes_ok m ->
  outs_separate (isize t) out so n -> no_clobber (isize t) a s out so n ->
  (forall i, 0 <= i < n -> valid t (ld (isize t) m (a + i * s))) ->
  (so = 0 -> answered1 u t a s out so n m (numpy a out n s so m)) ->
  answered1 u t a s out so n m (UnaryCall u (I t) numpy a out n s so m).
Proof.
  intros u t numpy a out n s so m R Hn Hm Ho Hc Hv Hnp. unfold UnaryCall.
  destruct (GetUnaryOp u (I t)) as [f|] eqn:Hf.
  - destruct (Z.eqb_spec so 0) as [E|E]; [apply Hnp, E|].
    destruct (unary_ints u t a out n s so m f R Hn E Hm Ho Hc Hf) as [D1 D2]. split; [|exact D2].
    intros i Hi. rewrite D1 by exact Hi. apply scalar_answers; auto.
  - destruct u, t; try (destruct R; fail); discriminate Hf.
Qed.
Print Assumptions C53_integer_unary.

Lemma valid_range t v : valid t v -> 0 <= v < 2 ^ width t.
Proof. destruct t; intros H; try exact H. change (2 ^ width BOOL) with 256. cbn in H. lia. Qed.
(** the answer is unique: two results that satisfy the specification are the same bits *)
Theorem C53_answer_unique : forall u t x r r', answers1 u t x r -> answers1 u t x r' -> r = r'.
Proof.
  intros u t x r r' [V A] [V' A'].
  assert (W : 0 < 2 ^ width t) by (destruct t; reflexivity).
  assert (N : forall e, (exists k, number t r = e + k * 2 ^ width t) -> (exists k, number t r' = e + k * 2 ^ width t) -> r = r').
  { intros e [k E] [k' E'].
    assert (M : forall v, valid t v -> 0 <= v < 2 ^ width t) by (exact (valid_range t)).
    apply M in V. apply M in V'.
    assert (F : forall v, 0 <= v < 2 ^ width t -> v = number t v mod 2 ^ width t).
    { intros v Hv. unfold number, sval. destruct (signed t); [destruct (_ <? _)|]; try (symmetry; apply Z.mod_small; lia).
      replace (v - 2 ^ width t) with (v + (-1) * 2 ^ width t) by lia. rewrite Z.mod_add by lia. symmetry. apply Z.mod_small. lia. }
    rewrite (F r V), (F r' V'), E, E'. rewrite !Z.mod_add by lia. reflexivity. }
  destruct u; try (destruct A; fail).
  - exact (N _ A A').
  - exact (N _ A A').
  - apply (N (Z.sgn (number t x))); exists 0; cbn in A, A'; lia.
  - destruct (ity_eqb_bool t) as [->|Ht].
    + cbn [valid] in V, V'. rewrite <- A' in A. destruct V as [-> | ->], V' as [-> | ->]; try reflexivity; discriminate A.
    + assert (B : forall b, 0 <= b < width t -> Z.testbit r b = negb (Z.testbit x b)) by (destruct t; try exact A; congruence).
      assert (B' : forall b, 0 <= b < width t -> Z.testbit r' b = negb (Z.testbit x b)) by (destruct t; try exact A'; congruence).
      assert (M : forall v, valid t v -> v mod 2 ^ width t = v) by (intros v Hv; apply Z.mod_small, valid_range, Hv).
      rewrite <- (M r V), <- (M r' V'). apply Z.bits_inj'. intros b Hb.
      destruct (Z.lt_ge_cases b (width t)).
      * rewrite !Z.mod_pow2_bits_low by lia. rewrite B, B' by lia. reflexivity.
      * assert (0 <= width t) by (destruct t; discriminate). rewrite !Z.mod_pow2_bits_high by lia. reflexivity.
Qed.

(** hypotheses: np.abs of 21 int32 in place, every third one the most negative number, so both loops run and the
    overflow case occurs *)
Definition ex_mem : bytes := fun b => if (b / 4) mod 3 =? 0 then (if b mod 4 =? 3 then 128 else 0) else 255.
Example C53_nonvacuous :
  replaced1 ABS INT32 /\ bytes_ok ex_mem /\ outs_separate 4 4096 4 21 /\ no_clobber 4 4096 4 4096 4 21 /\
  (forall i, 0 <= i < 21 -> valid INT32 (ld 4 ex_mem (4096 + i * 4))) /\
  map (fun i => ld 4 (UnaryCall ABS (I INT32) (fun _ _ _ _ _ m => m) 4096 4096 21 4 4 ex_mem) (4096 + i * 4)) [0;1;2;3;20]
    = [1; 1; 2147483648; 1; 2147483648].
Proof.
  assert (B : bytes_ok ex_mem) by (intros b; unfold ex_mem; destruct (_ =? _); [destruct (_ =? _)|]; lia).
  split; [exact Logic.I|]. split; [exact B|]. split; [intros i j Hi Hj Hne; unfold disj; lia|].
  split; [intros i j Hj Hi; unfold disj; lia|]. split; [|vm_compute; reflexivity].
  intros i _. pose proof (ld_pat 4 ex_mem (4096 + i * 4) ltac:(lia) B) as P. exact P.
Qed.

(** ---------- logical_not, signbit ---------- *)
(** C53, the yes/no ufuncs: np.logical_not on every integer type, bool, float32 and float64 (1 exactly when the element
    equals zero; either zero counts, a NaN does not), np.signbit on floats. *)
Theorem C53_yes_no : forall u t numpy a out n s so m,
  u = LOGICAL_NOT \/ (u = SIGNBIT /\ (t = FLOAT \/ t = DOUBLE)) ->
  0 <= n -> bytes_ok m -> uoperands (csize t) a s out so n ->
  (so = 0 -> answered u t a s out so n m (numpy a out n s so m)) ->
  answered u t a s out so n m (UnaryCall u t numpy a out n s so m).
Proof.
  intros u t numpy a out n s so m Hu Hn Hm Hop Hnp.
  assert (FN : forall f, known f -> forall x, f_not f x = true <-> ~ fnan f x /\ fval f x = 0).
  { intros f K x. pose proof (fops_holds f (kb f K) (kw f K) CMP_EQ x 0) as H. cbn [fops fholds rel] in H. unfold f_not. rewrite H.
    assert (Z0 : ~ fnan f 0 /\ fval f 0 = 0) by (destruct K as [-> | ->]; split; try reflexivity; intros [C _]; discriminate C).
    destruct Z0 as [Z1 Z2]. rewrite Z2. tauto. }
  assert (G : so <> 0 -> exists p, GetUnaryOp u t = Some (slow_bool (csize t) p) /\ (forall x, pat (csize t) x -> (p x = true <-> yes u t x))).
  { intros Hso. destruct Hu as [-> | [-> [-> | ->]]].
    - destruct t as [t| |].
      + exists i_not. split; [reflexivity|]. intros x Hx. cbn [csize] in Hx. unfold i_not. rewrite Z.eqb_eq. cbn [yes].
        apply pat_w in Hx. unfold number, sval. destruct (signed t) eqn:S; [|reflexivity].
        assert (0 < 2 ^ (width t - 1)) by (destruct t; reflexivity). destruct (Z.ltb_spec x (2 ^ (width t - 1))); lia.
      + exists (f_not FLT). split; [reflexivity|]. intros x _. apply FN. now left.
      + exists (f_not DBL). split; [reflexivity|]. intros x _. apply FN. now right.
    - exists (c_signbit FLT). split; [reflexivity|]. intros x _. apply Z.leb_le.
    - exists (c_signbit DBL). split; [reflexivity|]. intros x _. apply Z.leb_le. }
  unfold UnaryCall. destruct (Z.eqb_spec so 0) as [E|E].
  - destruct (GetUnaryOp u t); apply Hnp, E.
  - destruct (G E) as (p & -> & Hp). eapply udid_answered; [exact Hm|exact Hp|]. apply slow_bool_did; try assumption.
    destruct t as [[]| |]; cbn; lia.
Qed.
Print Assumptions C53_yes_no.

(** ---------- float patterns ---------- *)
Section Signs.
  Variable f : fmt.
  Hypothesis Hf : known f.
  Let H := 2 ^ (fwidth f - 1).
  Lemma top : 0 < H /\ 2 ^ fwidth f = 2 * H.
  Proof. unfold H. destruct Hf as [-> | ->]; split; reflexivity. Qed.
  Lemma mag_cases x : 0 <= x < 2 ^ fwidth f -> (fneg f x = false /\ fmag f x = x /\ x < H) \/ (fneg f x = true /\ fmag f x = x - H /\ H <= x).
  Proof.
    intros Hx. destruct top as [T1 T2]. unfold fneg, fmag. fold H. destruct (Z.leb_spec H x) as [L|L].
    - right. split; [reflexivity|]. split; [|exact L]. replace x with (x - H + 1 * H) at 1 by lia. rewrite Z.mod_add by lia. apply Z.mod_small. lia.
    - left. split; [reflexivity|]. split; [apply Z.mod_small; lia|exact L].
  Qed.
  Lemma flip_cases x : 0 <= x < 2 ^ fwidth f -> f_flip f x = if fneg f x then x - H else x + H.
  Proof.
    intros Hx. destruct top as [T1 T2]. unfold f_flip. fold H.
    assert (A : forall y, 0 <= y < H -> Z.lxor y H = y + H).
    { intros y Hy. rewrite <- Z.add_nocarry_lxor; [reflexivity|]. unfold H. apply Z.bits_inj'. intros b Hb.
      rewrite Z.land_spec, Z.bits_0. rewrite Z.pow2_bits_eqb by (destruct Hf as [-> | ->]; cbn; lia).
      destruct (Z.eqb_spec (fwidth f - 1) b) as [E|E]; [|apply andb_false_r]. rewrite <- E.
      rewrite <- (Z.mod_small y H) by exact Hy. unfold H. rewrite Z.mod_pow2_bits_high by (destruct Hf as [-> | ->]; cbn; lia). reflexivity. }
    destruct (mag_cases x Hx) as [(-> & _ & L)|(-> & _ & L)]; [apply A; lia|].
    replace x with ((x - H) + H) at 1 by lia. rewrite <- A by lia. rewrite Z.lxor_assoc, Z.lxor_nilpotent. apply Z.lxor_0_r.
  Qed.
  Lemma flip_sign x : 0 <= x < 2 ^ fwidth f ->
    0 <= f_flip f x < 2 ^ fwidth f /\ fneg f (f_flip f x) = negb (fneg f x) /\ fmag f (f_flip f x) = fmag f x.
  Proof.
    intros Hx. destruct top as [T1 T2]. rewrite flip_cases by exact Hx. destruct (mag_cases x Hx) as [(-> & E & L)|(-> & E & L)].
    - split; [lia|]. destruct (mag_cases (x + H) ltac:(lia)) as [(_ & _ & C)|(-> & -> & _)]; [lia|]. split; [reflexivity|lia].
    - split; [lia|]. destruct (mag_cases (x - H) ltac:(lia)) as [(-> & -> & _)|(_ & _ & C)]; [|lia]. split; [reflexivity|lia].
  Qed.
  Lemma same_mag x y : fmag f x = fmag f y -> fabsval f x = fabsval f y /\ (fnan f x <-> fnan f y) /\ is_nan f x = is_nan f y.
  Proof. intros E. unfold fabsval, fnan, is_nan, fexp, ffrac. rewrite E. tauto. Qed.
  Lemma flip_val x : 0 <= x < 2 ^ fwidth f -> fval f (f_flip f x) = - fval f x /\ (fnan f (f_flip f x) <-> fnan f x).
  Proof.
    intros Hx. destruct (flip_sign x Hx) as (_ & N & M). destruct (same_mag _ _ M) as (A & B & _). split; [|exact B].
    unfold fval. rewrite A, N. destruct (fneg f x); cbn [negb]; lia.
  Qed.
  Lemma absval_pos x : 0 <= fabsval f x.
  Proof.
    destruct (fields f Hf x) as (E & F & _). unfold fabsval. pose proof (P0 f (kb f Hf)).
    destruct (Z.eqb_spec (fexp f x) 0); [lia|]. apply Z.mul_nonneg_nonneg; [lia|]. apply Z.pow_nonneg. lia.
  Qed.
  Lemma vabs_is x : 0 <= x < 2 ^ fwidth f -> vf_abs f x = fmag f x.
  Proof.
    intros Hx. unfold vf_abs, fmag. rewrite <- Z.land_ones by (destruct Hf as [-> | ->]; cbn; lia). f_equal. destruct Hf as [-> | ->]; reflexivity.
  Qed.
  Lemma mag_of_mag x : fmag f (fmag f x) = fmag f x /\ fneg f (fmag f x) = false /\ 0 <= fmag f x < H.
  Proof.
    destruct top as [T1 T2]. pose proof (mag_range f (kb f Hf) (kw f Hf) x) as R. fold H in R. unfold fmag at 1, fneg. fold H.
    rewrite Z.mod_small by lia. split; [reflexivity|]. split; [apply Z.leb_gt; lia|lia].
  Qed.
  Lemma vabs_val x : 0 <= x < 2 ^ fwidth f -> fval f (vf_abs f x) = Z.abs (fval f x) /\ (fnan f (vf_abs f x) <-> fnan f x).
  Proof.
    intros Hx. rewrite vabs_is by exact Hx. destruct (mag_of_mag x) as (M & N & _). destruct (same_mag _ _ M) as (A & B & _).
    split; [|exact B]. unfold fval. rewrite N, A. pose proof (absval_pos x). destruct (fneg f x); lia.
  Qed.
  Lemma zero_facts : fkey f 0 = 0 /\ is_nan f 0 = false /\ fval f 0 = 0.
  Proof. destruct Hf as [-> | ->]; repeat split. Qed.
  Lemma sabs_val x : 0 <= x < 2 ^ fwidth f -> (fnan f (f_abs f x) <-> fnan f x) /\ (~ fnan f x -> fval f (f_abs f x) = Z.abs (fval f x)).
  Proof.
    intros Hx. unfold f_abs. destruct (flip_val x Hx) as [V N].
    destruct (fops_holds f (kb f Hf) (kw f Hf) CMP_LT x 0) as [L1 L2]. cbn [fops fholds rel] in *. destruct zero_facts as (_ & _ & Z0). rewrite Z0 in *.
    assert (ZN : ~ fnan f 0) by (destruct Hf as [-> | ->]; intros [C _]; discriminate C).
    destruct (f_lt f x 0).
    - split; [exact N|]. intros _. destruct (L1 eq_refl) as (_ & _ & L). lia.
    - split; [tauto|]. intros NN. destruct (Z.lt_ge_cases (fval f x) 0) as [C|C]; [|lia].
      specialize (L2 (conj NN (conj ZN C))). discriminate L2.
  Qed.
  Lemma quiet_nan x : 0 <= x < 2 ^ fwidth f -> is_nan f x = true -> 0 <= quiet f x < 2 ^ fwidth f /\ fneg f (quiet f x) = fneg f x /\ is_nan f (quiet f x) = true.
  Proof.
    intros Hx Hn. set (p := fbits f - 1). assert (Hp : 0 <= p < fwidth f - 1) by (unfold p; destruct Hf as [-> | ->]; cbn; lia).
    assert (Hw : 0 < fwidth f) by (destruct Hf as [-> | ->]; reflexivity).
    assert (Q : quiet f x = if Z.testbit x p then x else x + 2 ^ p).
    { unfold quiet. fold p. destruct (Z.testbit x p) eqn:T.
      - apply Z.bits_inj'. intros b Hb. rewrite Z.lor_spec, Z.pow2_bits_eqb by lia. destruct (Z.eqb_spec p b) as [->|]; [now rewrite T|apply orb_false_r].
      - rewrite <- Z.lxor_lor.
        + rewrite <- Z.add_nocarry_lxor; [reflexivity|]. apply Z.bits_inj'. intros b Hb. rewrite Z.land_spec, Z.bits_0, Z.pow2_bits_eqb by lia.
          destruct (Z.eqb_spec p b) as [->|]; [now rewrite T|apply andb_false_r].
        + apply Z.bits_inj'. intros b Hb. rewrite Z.land_spec, Z.bits_0, Z.pow2_bits_eqb by lia.
          destruct (Z.eqb_spec p b) as [->|]; [now rewrite T|apply andb_false_r]. }
    rewrite Q. destruct (Z.testbit x p) eqn:T; [split; [exact Hx|split; [reflexivity|exact Hn]]|].
    destruct top as [T1 T2]. assert (PP : 0 < 2 ^ p) by (apply Z.pow_pos_nonneg; lia).
    assert (S : fmag f x + 2 ^ p < H).
    { assert (TM : Z.testbit (fmag f x) p = false) by (unfold fmag; rewrite Z.mod_pow2_bits_low by lia; exact T).
      assert (E : fmag f x + 2 ^ p = Z.lor (fmag f x) (2 ^ p)).
      { rewrite <- Z.lxor_lor, <- Z.add_nocarry_lxor; try reflexivity; apply Z.bits_inj'; intros b Hb; rewrite Z.land_spec, Z.bits_0, Z.pow2_bits_eqb by lia;
          (destruct (Z.eqb_spec p b) as [<-|]; [now rewrite TM|apply andb_false_r]). }
      rewrite E. destruct (mag_of_mag x) as (_ & _ & R).
      rewrite <- (Z.mod_small (fmag f x) H) by exact R. rewrite <- (Z.mod_small (2 ^ p) H) by (unfold H; split; [lia|apply Z.pow_lt_mono_r; lia]).
      unfold H. rewrite <- !Z.land_ones by lia. rewrite <- Z.land_lor_distr_l. rewrite Z.land_ones by lia. apply Z.mod_pos_bound. fold H. lia. }
    assert (M : fmag f (x + 2 ^ p) = fmag f x + 2 ^ p /\ fneg f (x + 2 ^ p) = fneg f x /\ 0 <= x + 2 ^ p < 2 ^ fwidth f).
    { destruct (mag_cases x Hx) as [(-> & E & L)|(-> & E & L)]; rewrite E in S.
      - assert (R : 0 <= x + 2 ^ p < 2 ^ fwidth f) by lia. destruct (mag_cases _ R) as [(-> & -> & _)|(_ & _ & C)]; [|lia]. split; [lia|split; [reflexivity|lia]].
      - assert (R : 0 <= x + 2 ^ p < 2 ^ fwidth f) by lia. destruct (mag_cases _ R) as [(_ & _ & C)|(-> & -> & _)]; [lia|]. split; [lia|split; [reflexivity|lia]]. }
    destruct M as (M1 & M2 & M3). split; [exact M3|]. split; [exact M2|]. unfold is_nan in *. rewrite M1. lia.
  Qed.
  Lemma vneg_val x : 0 <= x < 2 ^ fwidth f -> (fnan f (vf_neg f x) <-> fnan f x) /\ (~ fnan f x -> fval f (vf_neg f x) = - fval f x).
  Proof.
    intros Hx. unfold vf_neg. pose proof (class_nan f Hf x) as C. destruct (is_nan f x) eqn:E.
    - destruct (quiet_nan x Hx E) as (_ & _ & Q). apply (class_nan f Hf) in Q. split; [split; intros; [now apply C|assumption]|]. intros N. destruct N. now apply C.
    - assert (NN : ~ fnan f x) by (intros N; apply C in N; discriminate N).
      destruct (Z.eqb_spec (fmag f x) 0) as [Z0|Z0].
      + assert (ZN : ~ fnan f 0) by (destruct Hf as [-> | ->]; intros [D _]; discriminate D). split; [tauto|]. intros _.
        assert (fval f x = 0); [|destruct zero_facts as (_ & _ & ->); lia].
        assert (fabsval f x = fabsval f 0) as A by (apply (same_mag x 0); rewrite Z0; destruct Hf as [-> | ->]; reflexivity).
        assert (fabsval f 0 = 0) as B by (destruct Hf as [-> | ->]; reflexivity). unfold fval. rewrite A, B. destruct (fneg f x); reflexivity.
      + destruct (flip_val x Hx) as [V N]. split; [exact N|]. intros _. exact V.
  Qed.
End Signs.

(** ---------- C43 ---------- *)
Definition fty (f : fmt) : cty := if fwidth f =? 32 then FLOAT else DOUBLE.
Definition fsize (f : fmt) : Z := fwidth f / 8.
(** value-level answers: NaN exactly for NaN, otherwise the exact real |x| or -x *)
Definition abs_value (f : fmt) (x r : Z) : Prop := (fnan f r <-> fnan f x) /\ (~ fnan f x -> fval f r = Z.abs (fval f x)).
Definition neg_value (f : fmt) (x r : Z) : Prop := (fnan f r <-> fnan f x) /\ (~ fnan f x -> fval f r = - fval f x).
Definition float_op (u : uop) (f : fmt) : Z -> Z := match u with ABS => f_abs f | _ => f_negate f end.
Definition float_lane (u : uop) (f : fmt) : Z -> Z := match u with ABS => vf_abs f | _ => vf_neg f end.

Lemma fpat f x : known f -> (pat (fsize f) x <-> 0 <= x < 2 ^ fwidth f).
Proof. intros [-> | ->]; reflexivity. Qed.
Lemma float_closed u f x : known f -> pat (fsize f) x -> pat (fsize f) (float_op u f x) /\ pat (fsize f) (float_lane u f x).
Proof.
  intros K. rewrite !fpat by exact K. intros Hx. destruct (flip_sign f K x Hx) as (F & _). destruct (top f K) as [T1 T2].
  destruct (mag_of_mag f K x) as (_ & _ & M).
  assert (A : 0 <= f_abs f x < 2 ^ fwidth f) by (unfold f_abs; destruct (f_lt f x 0); assumption).
  assert (B : 0 <= vf_abs f x < 2 ^ fwidth f) by (rewrite vabs_is by assumption; lia).
  assert (C : 0 <= vf_neg f x < 2 ^ fwidth f).
  { unfold vf_neg. destruct (is_nan f x) eqn:E; [apply quiet_nan; assumption|]. destruct (fmag f x =? 0); [lia|exact F]. }
  destruct u; cbn [float_op float_lane]; split; assumption.
Qed.
Lemma float_call u f numpy a out n s so m : known f -> u = ABS \/ u = NEGATIVE -> 0 <= n -> so <> 0 -> bytes_ok m ->
  outs_separate (fsize f) out so n -> no_clobber (fsize f) a s out so n ->
  upto (fsize f) out so (fun i => (if in_body (fsize f) s so n i then float_lane u f else float_op u f) (ld (fsize f) m (a + i * s))) n m
    (UnaryCall u (fty f) numpy a out n s so m).
Proof.
  intros K Hu Hn Hso Hm Ho Hc. unfold UnaryCall.
  assert (E : GetUnaryOp u (fty f) = Some (UnaryOpFast (fsize f) (float_op u f) (float_lane u f))) by (destruct K as [-> | ->], Hu as [-> | ->]; reflexivity).
  rewrite E. destruct (Z.eqb_spec so 0) as [|_]; [contradiction|]. apply unary_split; try assumption.
  - unfold good_sz. destruct K as [-> | ->]; [change (fsize FLT) with 4|change (fsize DBL) with 8]; lia.
  - intros x Hx. now apply float_closed.
  - intros x Hx. now apply float_closed.
Qed.

(** C43, what holds of every position: np.abs and np.negative of a float array give |x| and -x as numbers, NaN exactly
    for NaN, at every length, stride, alignment and position, and nothing else is written.  Missing from the full
    statement: the bits, which do depend on the position (below). *)
Theorem C43_float_values_partial : forall u f numpy a out n s so m,
  known f -> u = ABS \/ u = NEGATIVE -> 0 <= n -> so <> 0 -> bytes_ok m ->
  outs_separate (fsize f) out so n -> no_clobber (fsize f) a s out so n ->
  let m' := UnaryCall u (fty f) numpy a out n s so m in
  (forall i, 0 <= i < n ->
     match u with ABS => abs_value | _ => neg_value end f (ld (fsize f) m (a + i * s)) (ld (fsize f) m' (out + i * so))) /\
  (forall b, (forall i, 0 <= i < n -> ~ (out + i * so <= b < out + i * so + fsize f)) -> m' b = m b).
Proof.
  intros u f numpy a out n s so m K Hu Hn Hso Hm Ho Hc m'.
  destruct (float_call u f numpy a out n s so m K Hu Hn Hso Hm Ho Hc) as [U1 U2]. fold m' in U1, U2. split; [|exact U2].
  intros i Hi. rewrite U1 by exact Hi. set (x := ld (fsize f) m (a + i * s)).
  assert (Hx : 0 <= x < 2 ^ fwidth f) by (apply fpat; [exact K|apply ld_pat; [destruct K as [-> | ->]; discriminate|exact Hm]]).
  destruct Hu as [-> | ->]; cbn [float_op float_lane]; destruct (in_body _ _ _ _ _); unfold abs_value, neg_value.
  - destruct (vabs_val f K x Hx) as [A B]. split; [exact B|intros _; exact A].
  - apply sabs_val; assumption.
  - apply vneg_val; assumption.
  - destruct (flip_val f K x Hx) as [A B]. split; [exact B|intros _; exact A].
Qed.
Print Assumptions C43_float_values_partial.

(** C43, the exact bits.  Two positions holding the same pattern get the same bits except: absolute, when the pattern is
    -0.0 or a NaN with the sign bit, and one position is in the vector body and the other is not; negative, when it is
    +0.0 or any NaN. *)
Definition sensitive (u : uop) (f : fmt) (x : Z) : Prop :=
  match u with
  | ABS => 2 ^ (fwidth f - 1) <= x /\ (fnan f x \/ x = 2 ^ (fwidth f - 1))
  | _ => fnan f x \/ x = 0
  end.
Lemma lanes_agree u f x : known f -> u = ABS \/ u = NEGATIVE -> 0 <= x < 2 ^ fwidth f ->
  (float_lane u f x <> float_op u f x <-> sensitive u f x).
Proof.
  intros K Hu Hx. destruct (top f K) as [T1 T2]. pose proof (class_nan f K x) as CN.
  pose proof (flip_cases f K x Hx) as FC. destruct (zero_facts f K) as (Z1 & Z2 & _).
  destruct Hu as [-> | ->]; cbn [float_lane float_op sensitive]; unfold f_negate.
  - rewrite vabs_is by assumption. unfold f_abs, f_lt, ordered. rewrite Z1, Z2. unfold fkey.
    destruct (is_nan f x) eqn:E; cbn [negb andb].
    + assert (N : fnan f x) by now apply CN. destruct (mag_cases f K x Hx) as [(_ & -> & L)|(_ & -> & L)]; intuition lia.
    + assert (N : ~ fnan f x) by (intros C; apply CN in C; discriminate C).
      destruct (mag_cases f K x Hx) as [(NG & M & L)|(NG & M & L)]; rewrite NG, M in *; cbn [negb] in *.
      * destruct (Z.ltb_spec x 0); intuition lia.
      * destruct (Z.ltb_spec (- (x - 2 ^ (fwidth f - 1))) 0); intuition lia.
  - unfold vf_neg. destruct (is_nan f x) eqn:E.
    + assert (N : fnan f x) by now apply CN. destruct (quiet_nan f K x Hx E) as (_ & Q & _). destruct (flip_sign f K x Hx) as (_ & S & _).
      split; [tauto|]. intros _ C. rewrite C, S in Q. destruct (fneg f x); discriminate Q.
    + assert (N : ~ fnan f x) by (intros C; apply CN in C; discriminate C).
      destruct (mag_cases f K x Hx) as [(NG & M & L)|(NG & M & L)]; rewrite NG, M in *;
        match goal with |- context[?e =? 0] => destruct (Z.eqb_spec e 0) end; intuition lia.
Qed.

Theorem C43_bits_exact : forall u f numpy a out n s so m i j,
  known f -> u = ABS \/ u = NEGATIVE -> 0 <= n -> so <> 0 -> bytes_ok m ->
  outs_separate (fsize f) out so n -> no_clobber (fsize f) a s out so n ->
  0 <= i < n -> 0 <= j < n -> ld (fsize f) m (a + i * s) = ld (fsize f) m (a + j * s) ->
  let m' := UnaryCall u (fty f) numpy a out n s so m in
  ld (fsize f) m' (out + i * so) <> ld (fsize f) m' (out + j * so) <->
  sensitive u f (ld (fsize f) m (a + i * s)) /\ in_body (fsize f) s so n i <> in_body (fsize f) s so n j.
Proof.
  intros u f numpy a out n s so m i j K Hu Hn Hso Hm Ho Hc Hi Hj E m'.
  destruct (float_call u f numpy a out n s so m K Hu Hn Hso Hm Ho Hc) as [U1 U2]. fold m' in U1, U2. rewrite (U1 i Hi), (U1 j Hj), <- E.
  set (x := ld (fsize f) m (a + i * s)).
  assert (Hx : 0 <= x < 2 ^ fwidth f) by (apply fpat; [exact K|apply ld_pat; [destruct K as [-> | ->]; discriminate|exact Hm]]).
  pose proof (lanes_agree u f x K Hu Hx) as L.
  destruct (in_body (fsize f) s so n i), (in_body (fsize f) s so n j); intuition congruence.
Qed.
Print Assumptions C43_bits_exact.

(** C43 as stated is false: nine float32 equal to -0.0: np.abs gives +0.0 for the first eight, -0.0 for the ninth;
    nine +0.0: np.negative gives +0.0, then -0.0 *)
Theorem C43_refuted : forall u, u = ABS \/ u = NEGATIVE ->
  exists m i j, bytes_ok m /\ 0 <= i < 9 /\ 0 <= j < 9 /\ ld 4 m (4096 + i * 4) = ld 4 m (4096 + j * 4) /\
    ld 4 (UnaryCall u FLOAT (fun _ _ _ _ _ m => m) 4096 8192 9 4 4 m) (8192 + i * 4) <>
    ld 4 (UnaryCall u FLOAT (fun _ _ _ _ _ m => m) 4096 8192 9 4 4 m) (8192 + j * 4).
Proof.
  intros u [-> | ->].
  - exists (fun b => if b mod 4 =? 3 then 128 else 0), 0, 8. repeat split; try lia; try (destruct (_ =? _); lia); vm_compute; discriminate.
  - exists (fun _ => 0), 0, 8. repeat split; try lia; vm_compute; discriminate.
Qed.

(** integers: the bits depend on the value alone, never on the position *)
Theorem C43_integers : forall u t numpy a out n s so m i j,
  u = ABS \/ u = NEGATIVE -> replaced1 u t -> 0 <= n -> so <> 0 -> bytes_ok m ->
  outs_separate (isize t) out so n -> no_clobber (isize t) a s out so n ->
  0 <= i < n -> 0 <= j < n -> ld (isize t) m (a + i * s) = ld (isize t) m (a + j * s) ->
  let m' := UnaryCall u (I t) numpy a out n s so m in
  ld (isize t) m' (out + i * so) = ld (isize t) m' (out + j * so).
Proof.
  intros u t numpy a out n s so m i j Hu R Hn Hso Hm Ho Hc Hi Hj E m'. unfold m', UnaryCall.
  destruct (GetUnaryOp u (I t)) as [f|] eqn:Hf; [|destruct u, t; try (destruct R; fail); discriminate Hf].
  destruct (Z.eqb_spec so 0) as [|_]; [contradiction|].
  destruct (unary_ints u t a out n s so m f R Hn Hso Hm Ho Hc Hf) as [D1 _]. rewrite (D1 i Hi), (D1 j Hj), E. reflexivity.
Qed.
Print Assumptions C43_integers.

(** hypotheses: np.negative on 9 float32, into another array *)
Example C43_nonvacuous : outs_separate (fsize FLT) 8192 4 9 /\ no_clobber (fsize FLT) 4096 4 8192 4 9 /\
  sensitive NEGATIVE FLT 0 /\ in_body (fsize FLT) 4 4 9 0 <> in_body (fsize FLT) 4 4 9 8 /\ ~ sensitive NEGATIVE FLT 1065353216.
Proof.
  change (fsize FLT) with 4. split; [intros i j Hi Hj Hne; unfold disj; lia|]. split; [intros i j Hj Hi; unfold disj; lia|].
  split; [now right|]. split; [discriminate|]. intros [[C _]|C]; discriminate C.
Qed.

(** ---------- np.sign of floats ---------- *)
(** C53: np.sign of floats: 1.0, -1.0 or 0.0 as the sign of the element, the element itself when it is a NaN *)
Theorem C53_float_sign : forall f numpy a out n s so m,
  known f -> 0 <= n -> so <> 0 -> bytes_ok m ->
  outs_separate (fsize f) out so n -> no_clobber (fsize f) a s out so n ->
  let m' := UnaryCall SIGN (fty f) numpy a out n s so m in
  (forall i, 0 <= i < n ->
     let x := ld (fsize f) m (a + i * s) in let r := ld (fsize f) m' (out + i * so) in
     (fnan f x -> r = x) /\ (~ fnan f x -> ~ fnan f r /\ fval f r = Z.sgn (fval f x) * fval f (f_one f))) /\
  (forall b, (forall i, 0 <= i < n -> ~ (out + i * so <= b < out + i * so + fsize f)) -> m' b = m b).
Proof.
  intros f numpy a out n s so m K Hn Hso Hm Ho Hc m'.
  assert (CL : forall x, pat (fsize f) x -> pat (fsize f) (f_sign f x)).
  { intros x Hx. unfold f_sign. assert (ONE : pat (fsize f) (f_one f) /\ pat (fsize f) (f_flip f (f_one f)) /\ pat (fsize f) 0) by (destruct K as [-> | ->]; unfold pat; vm_compute; repeat split; discriminate).
    destruct (f_gt f x 0), (f_lt f x 0), (f_eq f x x); tauto. }
  assert (E : m' = slow (fsize f) (fsize f) (f_sign f) a out n s so m).
  { unfold m', UnaryCall. destruct (Z.eqb_spec so 0) as [|_]; [contradiction|]. destruct K as [-> | ->]; reflexivity. }
  rewrite E. destruct (slow_elementwise (fsize f) (f_sign f) a out n s so m ltac:(destruct K as [-> | ->]; discriminate) CL Hn Hso Hm Ho Hc) as [D1 D2].
  split; [|exact D2]. intros i Hi x r. unfold r. rewrite D1 by exact Hi. fold x.
  pose proof (fops_holds f (kb f K) (kw f K) CMP_GT x 0) as G1. pose proof (fops_holds f (kb f K) (kw f K) CMP_LT x 0) as G2.
  pose proof (fops_holds f (kb f K) (kw f K) CMP_EQ x x) as G3. cbn [fops fholds rel] in *. destruct (zero_facts f K) as (_ & _ & Z0). rewrite Z0 in *.
  assert (ZN : ~ fnan f 0) by (destruct K as [-> | ->]; intros [C _]; discriminate C).
  assert (ON : ~ fnan f (f_one f) /\ ~ fnan f (f_flip f (f_one f)) /\ fval f (f_flip f (f_one f)) = - fval f (f_one f)).
  { destruct K as [-> | ->]; (split; [intros [C _]; discriminate C|split; [intros [C _]; discriminate C|reflexivity]]). }
  destruct ON as (O1 & O2 & O3). unfold f_sign. split.
  - intros N. destruct (f_gt f x 0); [destruct (proj1 G1 eq_refl); tauto|]. destruct (f_lt f x 0); [destruct (proj1 G2 eq_refl); tauto|].
    destruct (f_eq f x x); [destruct (proj1 G3 eq_refl); tauto|reflexivity].
  - intros N. destruct (f_gt f x 0) eqn:E1.
    { destruct (proj1 G1 eq_refl) as (_ & _ & L). split; [exact O1|]. rewrite Z.sgn_pos by lia. lia. }
    destruct (f_lt f x 0) eqn:E2.
    { destruct (proj1 G2 eq_refl) as (_ & _ & L). split; [exact O2|]. rewrite Z.sgn_neg by lia. lia. }
    destruct (f_eq f x x) eqn:E3.
    + split; [exact ZN|]. rewrite Z0. destruct (Z.lt_trichotomy (fval f x) 0) as [L|[L|L]].
      * assert (false = true) by (apply G2; tauto). discriminate.
      * rewrite L. reflexivity.
      * assert (false = true) by (apply G1; intuition lia). discriminate.
    + assert (false = true) by (apply G3; tauto). discriminate.
Qed.
Print Assumptions C53_float_sign.
Example C53_one_is_one : fval FLT (f_one FLT) = 2 ^ 149 /\ fval DBL (f_one DBL) = 2 ^ 1074.
Proof. split; vm_compute; reflexivity. Qed.
