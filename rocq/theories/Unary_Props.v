(** Unary_Props.v - C42 (isnan, isinf, isfinite), C43 (negative, absolute), C53 (integer unary ufuncs). *)
From Verif Require Import Base Kernel_Model Kernel_Proofs Kernel_Props Float_Model Compare_Model Compare_Proofs Compare_Props Unary_Model Unary_Proofs.

(** ---------- specification ---------- *)
(** IEEE-754 classes, from the exponent and fraction fields *)
Definition finite_p (f : fmt) (x : Z) : Prop := fexp f x <> emax f.
Definition infinite_p (f : fmt) (x : Z) : Prop := fexp f x = emax f /\ ffrac f x = 0.
(** the yes/no ufuncs on an element of type t *)
Definition yes (u : uop) (t : cty) (x : Z) : Prop :=
  match t with
  | I t => match u with
      | LOGICAL_NOT => number t x = 0
      | ISFINITE | ISNOTNAN => True
      | _ => False end
  | FLOAT | DOUBLE =>
      let f := match t with FLOAT => FLT | _ => DBL end in
      match u with
      | ISNAN => fnan f x
      | ISINF => infinite_p f x
      | ISFINITE => finite_p f x
      | ISNOTNAN => ~ fnan f x
      | ISNOTFINITE => ~ finite_p f x
      | SIGNBIT => 2 ^ (fwidth f - 1) <= x
      | LOGICAL_NOT => ~ fnan f x /\ fval f x = 0
      | _ => False end
  end.
(** output byte i is 1 or 0 as the answer for input element i, and nothing else is written *)
Definition answered (u : uop) (t : cty) (a s out so n : Z) (m m' : bytes) : Prop :=
  (forall i, 0 <= i < n ->
     (yes u t (ld (csize t) m (a + i * s)) /\ m' (out + i * so) = 1) \/
     (~ yes u t (ld (csize t) m (a + i * s)) /\ m' (out + i * so) = 0)) /\
  (forall b, (forall i, 0 <= i < n -> b <> out + i * so) -> m' b = m b).

(** ---------- predicates on patterns ---------- *)
Definition known (f : fmt) : Prop := f = FLT \/ f = DBL.
Definition fsz (f : fmt) : Z := fwidth f / 8.

Section Class.
  Variable f : fmt.
  Hypothesis Hf : known f.
  Lemma kb : 0 < fbits f. Proof. destruct Hf as [-> | ->]; cbn; lia. Qed.
  Lemma kw : fbits f < fwidth f - 1. Proof. destruct Hf as [-> | ->]; cbn; lia. Qed.
  Lemma fields x : 0 <= fexp f x <= emax f /\ 0 <= ffrac f x < 2 ^ fbits f /\ fmag f x = fexp f x * 2 ^ fbits f + ffrac f x.
  Proof.
    pose proof kb. pose proof kw. pose proof (P0 f kb) as HP. pose proof (mag_range f kb kw x) as R.
    unfold emax, fexp, ffrac, ebits. pose proof (Z.div_mod (fmag f x) (2 ^ fbits f) ltac:(lia)) as D.
    pose proof (Z.mod_pos_bound (fmag f x) _ HP) as M.
    replace (fwidth f - 1) with (fwidth f - 1 - fbits f + fbits f) in R by lia. rewrite Z.pow_add_r in R by lia.
    split; [|split; [exact M|lia]]. split; [apply Z.div_pos; lia|].
    enough (fmag f x / 2 ^ fbits f < 2 ^ (fwidth f - 1 - fbits f)) by lia. apply Z.div_lt_upper_bound; lia.
  Qed.
  Lemma class_nan x : is_nan f x = true <-> fnan f x.
  Proof. exact (nan_iff f kb kw x). Qed.
  Lemma class_inf x : c_isinf f x = true <-> infinite_p f x.
  Proof.
    destruct (fields x) as (E & F & M). pose proof (P0 f kb) as HP. unfold c_isinf, infinite_p, finf. rewrite Z.eqb_eq.
    split; [intros H; rewrite H in M; assert (fexp f x = emax f) by nia; split; [assumption|nia]|intros [H1 H2]; rewrite M, H1, H2; lia].
  Qed.
  Lemma class_finite x : c_isfinite f x = true <-> finite_p f x.
  Proof.
    destruct (fields x) as (E & F & M). pose proof (P0 f kb) as HP. unfold c_isfinite, finite_p, finf. rewrite Z.ltb_lt.
    split; [intros H C; rewrite C in M; lia|intros H; assert (fexp f x + 1 <= emax f) by lia; nia].
  Qed.
  Lemma ne_self x : f_ne f x x = c_isnan f x.
  Proof. unfold f_ne, ordered, c_isnan. rewrite Z.eqb_refl. destruct (is_nan f x); reflexivity. Qed.
  Lemma eq_self x : f_eq f x x = negb (c_isnan f x).
  Proof. unfold f_eq, ordered, c_isnan. rewrite Z.eqb_refl. destruct (is_nan f x); reflexivity. Qed.

  Lemma mask_is : exp_mask f = finf f.
  Proof. destruct Hf as [-> | ->]; reflexivity. Qed.
  Lemma masked x : 0 <= x -> Z.land x (exp_mask f) = fexp f x * 2 ^ fbits f.
  Proof.
    intros Hx. pose proof kb. pose proof kw.
    assert (E : exp_mask f = Z.shiftl (Z.ones (ebits f)) (fbits f)) by (destruct Hf as [-> | ->]; reflexivity).
    rewrite E. apply Z.bits_inj'. intros b Hb. rewrite Z.land_spec, Z.shiftl_spec by lia.
    rewrite <- (Z.shiftl_mul_pow2 _ (fbits f)) by lia. rewrite Z.shiftl_spec by lia.
    unfold fexp, fmag, ebits. destruct (Z.lt_ge_cases b (fbits f)) as [Hlt|Hge].
    - rewrite !(Z.testbit_neg_r _ (b - fbits f)) by lia. apply andb_false_r.
    - rewrite Z.testbit_ones_nonneg by lia. rewrite <- Z.shiftr_div_pow2 by lia. rewrite Z.shiftr_spec by lia.
      replace (b - fbits f + fbits f) with b by lia.
      destruct (Z.lt_ge_cases b (fwidth f - 1)) as [Hl|Hg].
      + rewrite Z.mod_pow2_bits_low by lia. replace (b - fbits f <? fwidth f - 1 - fbits f) with true by (symmetry; apply Z.ltb_lt; lia). apply andb_true_r.
      + rewrite Z.mod_pow2_bits_high by lia. replace (b - fbits f <? fwidth f - 1 - fbits f) with false by (symmetry; apply Z.ltb_ge; lia). apply andb_false_r.
  Qed.
  Lemma small_pattern y : 0 <= y <= finf f -> is_nan f y = false /\ fkey f y = y.
  Proof.
    intros H. assert (L : finf f < 2 ^ (fwidth f - 1)) by (destruct Hf as [-> | ->]; reflexivity).
    unfold is_nan, fkey, fneg, fmag. rewrite Z.mod_small by lia. split; [apply Z.ltb_ge; lia|].
    destruct (Z.leb_spec (2 ^ (fwidth f - 1)) y); lia.
  Qed.
  Lemma neo_finite x : 0 <= x -> f_neo f (exp_mask f) (Z.land x (exp_mask f)) = c_isfinite f x.
  Proof.
    intros Hx. rewrite masked by exact Hx. rewrite mask_is. destruct (fields x) as (E & F & M). pose proof (P0 f kb) as HP.
    assert (R : 0 <= fexp f x * 2 ^ fbits f <= finf f) by (unfold finf; nia).
    destruct (small_pattern _ R) as [N1 K1]. destruct (small_pattern (finf f) ltac:(lia)) as [N2 K2].
    unfold f_neo, ordered. rewrite N1, N2, K1, K2. cbn [negb andb].
    apply eq_true_iff_eq. rewrite negb_true_iff, Z.eqb_neq, class_finite. unfold finite_p, finf. nia.
  Qed.
  Lemma eq_finite x : 0 <= x -> f_eq f (exp_mask f) (Z.land x (exp_mask f)) = negb (c_isfinite f x).
  Proof.
    intros Hx. rewrite <- neo_finite by exact Hx. rewrite masked by exact Hx. rewrite mask_is. destruct (fields x) as (E & F & M). pose proof (P0 f kb) as HP.
    assert (R : 0 <= fexp f x * 2 ^ fbits f <= finf f) by (unfold finf; nia).
    destruct (small_pattern _ R) as [N1 K1]. destruct (small_pattern (finf f) ltac:(lia)) as [N2 K2].
    unfold f_neo, f_eq, ordered. rewrite N1, N2, K1, K2. cbn [negb andb]. now rewrite negb_involutive.
  Qed.
  Lemma inf_both x : f_eq f x (pos_inf f) || f_eq f x (neg_inf f) = c_isinf f x.
  Proof.
    assert (P1 : is_nan f (pos_inf f) = false /\ fkey f (pos_inf f) = finf f) by (destruct Hf as [-> | ->]; split; reflexivity).
    assert (P2 : is_nan f (neg_inf f) = false /\ fkey f (neg_inf f) = - finf f) by (destruct Hf as [-> | ->]; split; reflexivity).
    assert (P3 : 0 < finf f) by (destruct Hf as [-> | ->]; reflexivity).
    destruct P1 as [A0 A1]. destruct P2 as [B0 B1]. unfold f_eq, ordered. rewrite A0, B0, A1, B1. cbn [negb]. rewrite !andb_true_r.
    pose proof (mag_range f kb kw x) as R. unfold c_isinf, is_nan, fkey.
    destruct (Z.ltb_spec (finf f) (fmag f x)) as [L|L]; cbn [negb andb orb].
    - symmetry. apply Z.eqb_neq. lia.
    - destruct (fneg f x); lia.
  Qed.
End Class.

(** ---------- C42 ---------- *)
Lemma udid_answered u t p a s out so n m m' : bytes_ok m ->
  (forall x, pat (csize t) x -> (p x = true <-> yes u t x)) ->
  udid (csize t) p a s out so n m m' -> answered u t a s out so n m m'.
Proof.
  intros Hm Hp [D1 D2]. split; [|exact D2]. intros i Hi. rewrite (D1 i Hi).
  assert (Hs : 0 <= csize t) by (destruct t as [[]| |]; cbn; lia).
  pose proof (Hp _ (ld_pat (csize t) m (a + i * s) Hs Hm)) as E.
  destruct (p _) eqn:C; [left|right]; split; try reflexivity; [now apply E|]. intros H. apply E in H. discriminate H.
Qed.

Lemma nan_float_did a s out so n m : 0 <= n -> so <> 0 -> bytes_ok m -> uoperands 4 a s out so n ->
  udid 4 (c_isnan FLT) a s out so n m (UnaryNanFastFloat a out n s so m).
Proof.
  intros Hn Hso Hm Hop. unfold UnaryNanFastFloat.
  destruct ((1 =? so) && (4 =? s)) eqn:E; [|apply slow_bool_did; try assumption; lia].
  assert (so = 1 /\ s = 4) as [-> ->] by lia.
  pose proof (vrounds_did 4 32 8 4 32 _ _ (fun x => f_ne FLT x x) ltac:(lia) ltac:(lia) eq_refl eq_refl ltac:(lia) eq_refl
    (ufour_ok 8 _ _ (float_lanes (f_ne FLT))) (fun x _ => eq_refl) a out n m Hn Hm Hop) as [D1 D2].
  split; [|exact D2]. intros i Hi. etransitivity; [exact (D1 i Hi)|]. cbv beta. now rewrite (ne_self FLT).
Qed.
Lemma nan_double_did a s out so n m : 0 <= n -> so <> 0 -> bytes_ok m -> uoperands 8 a s out so n ->
  udid 8 (c_isnan DBL) a s out so n m (UnaryNanFastDouble a out n s so m).
Proof.
  intros Hn Hso Hm Hop. unfold UnaryNanFastDouble.
  destruct ((1 =? so) && (8 =? s) && (4 <=? n)) eqn:E; [|apply slow_bool_did; try assumption; lia].
  assert (so = 1 /\ s = 8) as [-> ->] by lia.
  pose proof (vrounds_did 8 16 2 4 8 _ _ (fun x => f_ne DBL x x) ltac:(lia) ltac:(lia) eq_refl eq_refl ltac:(lia) eq_refl
    (ufour_ok 2 _ _ (double_lanes (f_ne DBL))) (fun x _ => eq_refl) a out n m Hn Hm Hop) as [D1 D2].
  split; [|exact D2]. intros i Hi. etransitivity; [exact (D1 i Hi)|]. cbv beta. now rewrite (ne_self DBL).
Qed.
Lemma inf_float_did a s out so n m : 0 <= n -> so <> 0 -> bytes_ok m -> uoperands 4 a s out so n ->
  udid 4 (c_isinf FLT) a s out so n m (UnaryInfFastFloat a out n s so m).
Proof.
  intros Hn Hso Hm Hop. unfold UnaryInfFastFloat.
  destruct ((1 =? so) && (4 =? s)) eqn:E; [|apply slow_bool_did; try assumption; lia].
  assert (so = 1 /\ s = 4) as [-> ->] by lia.
  exact (vrounds_did 4 32 8 4 32 _ _ (c_isinf FLT) ltac:(lia) ltac:(lia) eq_refl eq_refl ltac:(lia) eq_refl
    inf_round_ok (fun x _ => inf_both FLT (or_introl eq_refl) x) a out n m Hn Hm Hop).
Qed.
Lemma pat_nonneg sz x : pat sz x -> 0 <= x. Proof. unfold pat. lia. Qed.
Lemma len_mask c x : length (and_mask c x) = length x. Proof. apply map_length. Qed.
Lemma len_set1 c x : length (set1 c x) = length x. Proof. apply map_length. Qed.
Lemma lut_float_did g p op a s out so n m : (forall x, length x = 8%nat -> g x = map1b p x) -> (forall x, pat 4 x -> p x = op x) ->
  0 <= n -> so <> 0 -> bytes_ok m -> uoperands 4 a s out so n -> udid 4 op a s out so n m (UnaryLut 4 8 g op a out n s so m).
Proof. intros Hg Hp. apply (lut_did 4 8 g p op); try lia; try reflexivity; assumption. Qed.
Lemma lut_double_did g p op a s out so n m : (forall x, length x = 4%nat -> g x = map1b p x) -> (forall x, pat 8 x -> p x = op x) ->
  0 <= n -> so <> 0 -> bytes_ok m -> uoperands 8 a s out so n -> udid 8 op a s out so n m (UnaryLut 8 4 g op a out n s so m).
Proof. intros Hg Hp. apply (lut_did 8 4 g p op); try lia; try reflexivity; assumption. Qed.

Lemma fill_did v a s out so n m sz : 0 <= n -> so <> 0 -> (v = 0 \/ v = 1) -> separate out so n ->
  udid sz (fun _ => v =? 1) a s out so n m (fill v a out n s so m).
Proof.
  intros Hn Hso Hv Ho.
  assert (E : fill v a out n s so m = cmp_loop 1 (fun _ _ => v =? 1) (Val 0) (Val 0) out so n m).
  { unfold fill, cmp_loop, while_rounds. assert (V : b2z (v =? 1) = v) by (destruct Hv as [-> | ->]; reflexivity).
    destruct (Z.eqb_spec so 0); [contradiction|]. destruct (Z.eqb_spec so 1) as [->|];
      apply fold_ext; intros m' i; cbn [rd]; rewrite V; [now rewrite Z.mul_1_r|reflexivity]. }
  rewrite E. set (F := fun _ : Z => b2z (v =? 1)).
  assert (U : upto 1 out so F (0 + n) m (cmp_loop 1 (fun _ _ => v =? 1) (Val 0) (Val 0) (out + 0 * so) so n m)).
  { apply (cmp_loop_upto 1 _ out so n F m) with (vx := fun _ => 0) (vy := fun _ => 0); try assumption; try lia; try apply upto_0;
      try (intros _ k i m' _ _ _ _; reflexivity). reflexivity. }
  replace (out + 0 * so) with out in U by lia. destruct U as [U1 U2]. split.
  - intros i Hi. rewrite <- ld1. apply U1. lia.
  - intros b Hb. apply U2. intros i Hi. specialize (Hb i ltac:(lia)). lia.
Qed.

(** C42.  isnan, isinf and isfinite (and atop's isnotnan, isnotfinite), on float32 and float64 arrays of every length,
    alignment, stride and content: each output byte is 1 exactly when the element at that position is a NaN / an
    infinity / finite by its IEEE fields, 0 otherwise, and nothing else is written.  Integers: the constant answer
    (except isnotfinite, answered 1 for integers too; no NumPy ufunc is hooked to it).
    [numpy]: NumPy's own loop, used for a single element (output stride 0). *)
Definition classifies (u : uop) (t : cty) : Prop :=
  match u, t with
  | (ISNAN | ISINF | ISFINITE | ISNOTNAN), _ => True
  | ISNOTFINITE, (FLOAT | DOUBLE) => True
  | _, _ => False
  end.
Theorem C42_classification : forall u t numpy a out n s so m,
  classifies u t -> 0 <= n -> bytes_ok m -> uoperands (csize t) a s out so n ->
  (so = 0 -> answered u t a s out so n m (numpy a out n s so m)) ->
  answered u t a s out so n m (UnaryCall u t numpy a out n s so m).
Proof.
  intros u t numpy a out n s so m Hc Hn Hm Hop Hnp. unfold UnaryCall.
  assert (K1 : known FLT) by now left. assert (K2 : known DBL) by now right.
  assert (G : so <> 0 -> match GetUnaryOp u t with Some f => answered u t a s out so n m (f a out n s so m) | None => False end).
  { intros Hso.
    assert (NI : forall b, negb b = true <-> ~ b = true) by (intros []; cbn; intuition discriminate).
    destruct u; try contradiction; destruct t as [t| |]; try contradiction; cbn [GetUnaryOp csize] in *.
    all: match goal with
      | |- answered _ (I _) _ _ _ _ _ _ (fill ?v _ _ _ _ _ _) =>
          apply (udid_answered _ _ (fun _ => v =? 1)); [exact Hm| |apply fill_did; try assumption; [tauto|apply Hop]];
          intros x _; cbn; intuition discriminate
      | |- answered _ FLOAT _ _ _ _ _ _ (UnaryNanFastFloat _ _ _ _ _ _) => apply (udid_answered _ _ (c_isnan FLT)); [exact Hm|intros x _; apply class_nan, K1|now apply nan_float_did]
      | |- answered _ DOUBLE _ _ _ _ _ _ (UnaryNanFastDouble _ _ _ _ _ _) => apply (udid_answered _ _ (c_isnan DBL)); [exact Hm|intros x _; apply class_nan, K2|now apply nan_double_did]
      | |- answered _ FLOAT _ _ _ _ _ _ (UnaryInfFastFloat _ _ _ _ _ _) => apply (udid_answered _ _ (c_isinf FLT)); [exact Hm|intros x _; apply class_inf, K1|now apply inf_float_did]
      | |- answered ISINF DOUBLE _ _ _ _ _ _ _ => apply (udid_answered _ _ (c_isinf DBL)); [exact Hm|intros x _; apply class_inf, K2|]
      | |- answered ISFINITE FLOAT _ _ _ _ _ _ _ => apply (udid_answered _ _ (c_isfinite FLT)); [exact Hm|intros x _; apply class_finite, K1|]
      | |- answered ISFINITE DOUBLE _ _ _ _ _ _ _ => apply (udid_answered _ _ (c_isfinite DBL)); [exact Hm|intros x _; apply class_finite, K2|]
      | |- answered ISNOTNAN FLOAT _ _ _ _ _ _ _ => apply (udid_answered _ _ (fun x => negb (c_isnan FLT x))); [exact Hm|intros x _; rewrite NI; cbn [yes]; pose proof (class_nan FLT K1 x); unfold c_isnan; tauto|]
      | |- answered ISNOTNAN DOUBLE _ _ _ _ _ _ _ => apply (udid_answered _ _ (fun x => negb (c_isnan DBL x))); [exact Hm|intros x _; rewrite NI; cbn [yes]; pose proof (class_nan DBL K2 x); unfold c_isnan; tauto|]
      | |- answered ISNOTFINITE FLOAT _ _ _ _ _ _ _ => apply (udid_answered _ _ (fun x => negb (c_isfinite FLT x))); [exact Hm|intros x _; rewrite NI; cbn [yes]; pose proof (class_finite FLT K1 x); tauto|]
      | |- answered ISNOTFINITE DOUBLE _ _ _ _ _ _ _ => apply (udid_answered _ _ (fun x => negb (c_isfinite DBL x))); [exact Hm|intros x _; rewrite NI; cbn [yes]; pose proof (class_finite DBL K2 x); tauto|]
      end.
    - apply (lut_double_did _ (fun x => f_eq DBL x (pos_inf DBL) || f_eq DBL x (neg_inf DBL))); try assumption.
      + intros x Hx. rewrite inf_mask_lanes, lut4_lanes by assumption. apply map2b_self.
      + intros x _. apply inf_both, K2.
    - apply (lut_float_did _ (fun x => f_neo FLT (exp_mask FLT) (Z.land x (exp_mask FLT)))); try assumption.
      + intros x Hx. rewrite lut8_lanes by (rewrite ?len_mask, ?len_set1; assumption). apply map2b_masks.
      + intros x Hx. apply neo_finite; [exact K1|eapply pat_nonneg, Hx].
    - apply (lut_double_did _ (fun x => f_neo DBL (exp_mask DBL) (Z.land x (exp_mask DBL)))); try assumption.
      + intros x Hx. rewrite lut4_lanes by (rewrite ?len_mask, ?len_set1; assumption). apply map2b_masks.
      + intros x Hx. apply neo_finite; [exact K2|eapply pat_nonneg, Hx].
    - apply (lut_float_did _ (fun x => f_eq FLT x x)); try assumption.
      + intros x Hx. rewrite lut8_lanes by assumption. apply map2b_self.
      + intros x Hx. apply eq_self.
    - apply (lut_double_did _ (fun x => f_eq DBL x x)); try assumption.
      + intros x Hx. rewrite lut4_lanes by assumption. apply map2b_self.
      + intros x Hx. apply eq_self.
    - apply (lut_float_did _ (fun x => f_eq FLT (exp_mask FLT) (Z.land x (exp_mask FLT)))); try assumption.
      + intros x Hx. rewrite lut8_lanes by (rewrite ?len_mask, ?len_set1; assumption). apply map2b_masks.
      + intros x Hx. apply eq_finite; [exact K1|eapply pat_nonneg, Hx].
    - apply (lut_double_did _ (fun x => f_eq DBL (exp_mask DBL) (Z.land x (exp_mask DBL)))); try assumption.
      + intros x Hx. rewrite lut4_lanes by (rewrite ?len_mask, ?len_set1; assumption). apply map2b_masks.
      + intros x Hx. apply eq_finite; [exact K2|eapply pat_nonneg, Hx]. }
  destruct (GetUnaryOp u t) as [f|].
  - destruct (Z.eqb_spec so 0) as [E|E]; [apply Hnp, E|apply G, E].
  - destruct (Z.eq_dec so 0) as [E|E]; [apply Hnp, E|destruct (G E)].
Qed.
Print Assumptions C42_classification.

(** hypotheses: np.isnan of 37 float32, one round of 32 and a tail of 5; elements 0 and 36 are NaN, 1 is -infinity *)
Definition nan_mem : bytes := fun b => if (b =? 4096 + 3) || (b =? 4096 + 147) then 127 else if (b =? 4096 + 2) || (b =? 4096 + 146) then 129
  else if b =? 4096 + 7 then 255 else if b =? 4096 + 6 then 128 else 0.
Example C42_nonvacuous : bytes_ok nan_mem /\ uoperands 4 4096 4 8192 1 37 /\
  map (UnaryCall ISNAN FLOAT (fun _ _ _ _ _ m => m) 4096 8192 37 4 1 nan_mem) [8192; 8193; 8194; 8228] = [1; 0; 0; 1] /\
  map (UnaryCall ISINF FLOAT (fun _ _ _ _ _ m => m) 4096 8192 37 4 1 nan_mem) [8192; 8193; 8194; 8228] = [0; 1; 0; 0] /\
  map (UnaryCall ISFINITE FLOAT (fun _ _ _ _ _ m => m) 4096 8192 37 4 1 nan_mem) [8192; 8193; 8194; 8228] = [0; 0; 1; 0].
Proof.
  split; [intros b; unfold nan_mem; repeat (destruct (_ || _)); repeat (destruct (_ =? _)); lia|].
  split; [split; [intros i j Hi Hj Hne; unfold disj; lia|intros i j Hj Hi; lia]|].
  repeat split; vm_compute; reflexivity.
Qed.
