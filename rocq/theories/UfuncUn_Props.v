(** UfuncUn_Props.v - C73: unary ufuncs on worker threads, end to end, in every interleaving of byte accesses. *)
From Verif Require Import Base Threads_Model Threads_Proofs Jobs_Model Sort_Model Kernel_Model Kernel_Proofs Kernel_Props
  Float_Model Compare_Model Compare_Proofs Compare_Props Unary_Model Unary_Proofs Unary_Props UnaryVal_Props Round_Model Round_Props Arith_Model Arith_Props Trig_Model Trig_Props
  Ufunc_Model Ufunc_Proofs Ufunc_Kernel_Proofs UfuncCmp_Model UfuncCmp_Props UfuncUn_Model UfuncUn_Proofs.


(** ---------- the kernels of the tables ---------- *)
Lemma separate_un_weak sz sz' szo a s out so n : sz' <= sz -> separate_un sz szo a s out so n -> separate_un sz' szo a s out so n.
Proof. intros Hle H i j Hi Hj Hne. destruct (H i j Hi Hj Hne) as [D1 D2]. split; [exact D1|]. unfold away in *. lia. Qed.

Lemma uone_le g W : 0 <= W -> (forall a, Z.of_nat (length (g a)) <= W) -> forall xs, Z.of_nat (length (uone g xs)) <= W.
Proof. intros HW H xs. unfold uone. destruct xs as [|? [|]]; cbn [length]; try lia; apply H. Qed.
Lemma ufour_le g W : 0 <= W -> (forall a b c d, Z.of_nat (length (g a b c d)) <= W) -> forall xs, Z.of_nat (length (ufour g xs)) <= W.
Proof. intros HW H xs. unfold ufour. destruct xs as [|? [|? [|? [|? [|]]]]]; cbn [length]; try lia; apply H. Qed.
Lemma klut_regular sz L g p op : 0 < L -> 0 < sz -> 32 / sz = L -> 32 = L * sz -> (forall x, Z.of_nat (length (g x)) <= L) ->
  (forall x, length x = Z.to_nat L -> g x = map1b p x) -> (forall x, pat sz x -> p x = op x) -> uregular (klut sz L g op).
Proof.
  intros HL Hs HD HB Hlen Hg Hp. cbn [uregular klut]. rewrite HD. repeat (split; [lia|]).
  split; [apply uone_le; [lia|exact Hlen]|]. split; [exists p; split; [apply uone_ok, Hg|exact Hp]|reflexivity].
Qed.
Definition out_size (u : uop) (t : cty) : Z :=
  match u with ISNAN | ISINF | ISFINITE | ISNOTNAN | ISNOTFINITE | LOGICAL_NOT | SIGNBIT => 1 | _ => csize t end.
Lemma b2z_pat1 b : pat 1 (b2z b).
Proof. unfold pat. destruct b; cbn; lia. Qed.
Lemma sign_closed f x : known f -> pat (fsize f) x -> pat (fsize f) (f_sign f x).
Proof.
  intros K Hx. unfold f_sign.
  assert (ONE : pat (fsize f) (f_one f) /\ pat (fsize f) (f_flip f (f_one f)) /\ pat (fsize f) 0) by (destruct K as [-> | ->]; unfold pat; vm_compute; repeat split; discriminate).
  destruct (f_gt f x 0), (f_lt f x 0), (f_eq f x x); tauto.
Qed.
Lemma un_table u t k : kGetUnaryOp u t = Some k -> uregular k /\ kin k <= csize t /\ kout k = out_size u t.
Proof.
  intros E. assert (K1 : known FLT) by now left. assert (K2 : known DBL) by now right.
  assert (WB8 : forall v, Z.of_nat (length (lut8 v)) <= 8) by (intros v; unfold lut8; rewrite word_bytes_len; lia).
  assert (WB4 : forall v, Z.of_nat (length (lut4 v)) <= 4) by (intros v; unfold lut4; rewrite word_bytes_len; lia).
  assert (FL : forall p x1 x2 x3 x4, Z.of_nat (length (float_round p x1 x1 x2 x2 x3 x3 x4 x4)) <= 32).
  { intros. cbv [float_round]. etransitivity; [apply inj_le, lanes2_le_r|cbn; lia]. }
  assert (BW : forall t x, pat (isize t) x -> 0 <= x < 2 ^ width t) by (intros; now apply pat_w).
  assert (GI : forall t, good_sz (isize t)) by (intros []; cbn; unfold good_sz; lia).
  assert (SC : forall u t, forall x, pat (isize t) x -> pat (isize t) (uop_scalar u t x)) by (intros; now apply scalar_closed).
  assert (AB : forall t, forall x, pat (isize t) x -> pat (isize t) (v_abs (width t) x)).
  { intros t' x Hx. rewrite lane_abs by (auto; destruct t'; reflexivity). exact (SC ABS t' x Hx). }
  assert (NG : forall t, forall x, pat (isize t) x -> pat (isize t) (v_neg (width t) x)).
  { intros t' x Hx. rewrite lane_neg by (auto; destruct t'; reflexivity). exact (SC NEGATIVE t' x Hx). }
  assert (FC : forall u f, known f -> (forall x, pat (fsize f) x -> pat (fsize f) (float_op u f x)) /\ (forall x, pat (fsize f) x -> pat (fsize f) (float_lane u f x))).
  { intros. split; intros; now apply float_closed. }
  assert (SG : forall f, known f -> forall x, pat (fsize f) x -> pat (fsize f) (f_sign f x)) by (intros; now apply sign_closed).
  destruct u, t as [[]| |]; cbn [kGetUnaryOp] in E; try discriminate E; injection E as <-;
    (split; [|split; [cbn; lia|reflexivity]]);
    try (cbn [uregular kslow_bool]; split; [cbn; lia|split; [lia|intros; apply b2z_pat1]]; fail);
    try (cbn [uregular]; tauto).
  all: try (cbn [uregular]; split; [unfold good_sz; lia|]; split; [first [exact (SC ABS INT8)|exact (SC ABS INT16)|exact (SC ABS INT32)|exact (SC ABS INT64)|exact (SC NEGATIVE INT8)|exact (SC NEGATIVE INT16)|exact (SC NEGATIVE INT32)|exact (SC NEGATIVE INT64)]|
    first [exact (AB INT8)|exact (AB INT16)|exact (AB INT32)|exact (AB INT64)|exact (NG INT8)|exact (NG INT16)|exact (NG INT32)|exact (NG INT64)]]; fail).
  all: try (cbn [uregular]; split; [cbn; lia|]; split; [cbn; lia|]; first [exact (SC ABS INT64)|exact (SC SIGN INT8)|exact (SC SIGN INT16)|exact (SC SIGN INT32)|exact (SC SIGN INT64)|exact (SC INVERT BOOL)|exact (SC INVERT INT8)|exact (SC INVERT UINT8)|exact (SC INVERT INT16)|exact (SC INVERT UINT16)|exact (SC INVERT INT32)|exact (SC INVERT UINT32)|exact (SC INVERT INT64)|exact (SC INVERT UINT64)|exact (SG FLT K1)|exact (SG DBL K2)]; fail).
  all: try (cbn [uregular]; split; [unfold good_sz; lia|]; first [exact (FC ABS FLT K1)|exact (FC ABS DBL K2)|exact (FC NEGATIVE FLT K1)|exact (FC NEGATIVE DBL K2)]; fail).
  - (* isnan *) split; [lia|]. split; [reflexivity|]. split; [reflexivity|]. split; [lia|]. split; [reflexivity|].
    split; [apply ufour_le; [lia|intros; apply FL]|]. split.
    + exists (fun a => f_ne FLT a a). split; [exact (ufour_ok 8 _ _ (float_lanes (f_ne FLT)))|]. intros x _. apply (ne_self FLT).
    + intros x _. apply (ne_self FLT).
  - split; [lia|]. split; [reflexivity|]. split; [reflexivity|]. split; [lia|]. split; [reflexivity|].
    split; [apply ufour_le; [lia|]; intros; cbv [double_round]; etransitivity; [apply inj_le, firstn_le_length|cbn; lia]|]. split.
    + exists (fun a => f_ne DBL a a). split; [exact (ufour_ok 2 _ _ (double_lanes (f_ne DBL)))|]. intros x _. apply (ne_self DBL).
    + intros x _. apply (ne_self DBL).
  - (* isinf *) split; [lia|]. split; [reflexivity|]. split; [reflexivity|]. split; [lia|]. split; [reflexivity|].
    split; [apply ufour_le; [lia|]; intros; cbv [inf_round]; etransitivity; [apply inj_le, lanes2_le_r|cbn; lia]|]. split; [|reflexivity].
    exists (fun a => f_eq FLT a (pos_inf FLT) || f_eq FLT a (neg_inf FLT)). split; [exact inf_round_ok|]. intros x _. apply (inf_both FLT K1).
  - apply (klut_regular 8 4 _ (fun x => f_eq DBL x (pos_inf DBL) || f_eq DBL x (neg_inf DBL))); [lia|lia|reflexivity|reflexivity|intros; apply WB4| |].
    + intros x Hx. rewrite inf_mask_lanes, lut4_lanes by exact Hx. apply map2b_self.
    + intros x _. apply inf_both, K2.
  - (* isfinite *) apply (klut_regular 4 8 _ (fun x => f_neo FLT (exp_mask FLT) (Z.land x (exp_mask FLT)))); [lia|lia|reflexivity|reflexivity|intros; apply WB8| |].
    + intros x Hx. rewrite lut8_lanes by (rewrite ?len_mask, ?len_set1; exact Hx). apply map2b_masks.
    + intros x Hx. apply neo_finite; [exact K1|eapply pat_nonneg, Hx].
  - apply (klut_regular 8 4 _ (fun x => f_neo DBL (exp_mask DBL) (Z.land x (exp_mask DBL)))); [lia|lia|reflexivity|reflexivity|intros; apply WB4| |].
    + intros x Hx. rewrite lut4_lanes by (rewrite ?len_mask, ?len_set1; exact Hx). apply map2b_masks.
    + intros x Hx. apply neo_finite; [exact K2|eapply pat_nonneg, Hx].
  - (* isnotnan *) apply (klut_regular 4 8 _ (fun x => f_eq FLT x x)); [lia|lia|reflexivity|reflexivity|intros; apply WB8| |].
    + intros x Hx. rewrite lut8_lanes by exact Hx. apply map2b_self.
    + intros x Hx. apply eq_self.
  - apply (klut_regular 8 4 _ (fun x => f_eq DBL x x)); [lia|lia|reflexivity|reflexivity|intros; apply WB4| |].
    + intros x Hx. rewrite lut4_lanes by exact Hx. apply map2b_self.
    + intros x Hx. apply eq_self.
  - (* isnotfinite *) apply (klut_regular 4 8 _ (fun x => f_eq FLT (exp_mask FLT) (Z.land x (exp_mask FLT)))); [lia|lia|reflexivity|reflexivity|intros; apply WB8| |].
    + intros x Hx. rewrite lut8_lanes by (rewrite ?len_mask, ?len_set1; exact Hx). apply map2b_masks.
    + intros x Hx. apply eq_finite; [exact K1|eapply pat_nonneg, Hx].
  - apply (klut_regular 8 4 _ (fun x => f_eq DBL (exp_mask DBL) (Z.land x (exp_mask DBL)))); [lia|lia|reflexivity|reflexivity|intros; apply WB4| |].
    + intros x Hx. rewrite lut4_lanes by (rewrite ?len_mask, ?len_set1; exact Hx). apply map2b_masks.
    + intros x Hx. apply eq_finite; [exact K2|eapply pat_nonneg, Hx].
Qed.
Lemma round_table r t k : kGetRoundOp r t = Some k -> uregular k /\ kin k = csize t /\ kout k = csize t.
Proof.
  intros E. assert (CL : forall md f, known f -> forall x, pat (fsize f) x -> pat (fsize f) (f_round md f x)).
  { intros md f K x. rewrite !fpat by exact K. intros Hx. apply round_ok; assumption. }
  assert (K1 : known FLT) by now left. assert (K2 : known DBL) by now right.
  destruct r, t as [t| |]; cbn [kGetRoundOp] in E; try discriminate E; injection E as <-; cbn [uregular kin kout csize];
    (split; [|split; reflexivity]).
  all: try (split; [unfold good_sz; lia|]; split; first [exact (CL _ FLT K1)|exact (CL _ DBL K2)]; fail).
  split; [lia|]. split; [lia|]. exact (CL _ DBL K2).
Qed.
Lemma trig_table u f libm k : known f -> scalar_fun f libm -> kGetTrigOp u f libm = Some k -> uregular k /\ kin k = fsize f /\ kout k = fsize f.
Proof.
  intros K Hl E. unfold kGetTrigOp in E. destruct (trig_lane u f) as [lane|] eqn:L; [|discriminate E]. injection E as <-.
  cbn [uregular kin kout]. split; [|split; reflexivity]. change (fwidth f / 8) with (fsize f).
  split; [destruct K as [-> | ->]; unfold good_sz; change (fsize FLT) with 4 || change (fsize DBL) with 8; lia|]. split.
  - intros x. rewrite !fpat by exact K. apply Hl.
  - intros x. rewrite !fpat by exact K. intros Hx. eapply lane_in; eauto.
Qed.

(** ---------- a call of a chosen loop ---------- *)
Section Chosen.
  Variables (found : option ukernel) (sz szo : Z) (nop : Z -> Z).
  Hypothesis Hs : 0 < sz.
  Hypothesis Ho : 0 < szo.
  Hypothesis Hfound : forall k, found = Some k -> uregular k /\ kin k <= sz /\ kout k = szo.
  Hypothesis Hnop : forall x, pat sz x -> pat szo (nop x).
  Variables (enabled : bool) (a out n s so : Z) (m : bytes).
  Hypothesis Hn : 0 <= n.
  Hypothesis Hm : bytes_ok m.
  Hypothesis Hsc : separate_un sz szo a s out so n.
  Let k := uchosen enabled found so sz szo nop.
  Lemma chosen_ok : uregular k /\ kin k <= sz /\ kout k = szo /\ (so = 0 -> is_numpy k).
  Proof.
    assert (N : uregular (UNumpy sz szo nop) /\ kin (UNumpy sz szo nop) <= sz /\ kout (UNumpy sz szo nop) = szo /\ (so = 0 -> is_numpy (UNumpy sz szo nop))).
    { cbn. split; [auto|]. split; [lia|]. split; [reflexivity|auto]. }
    unfold k, uchosen. destruct found as [k0|]; [|exact N]. destruct (Hfound k0 eq_refl) as (H1 & H2 & H3).
    destruct enabled; cbn [andb]; [|exact N]. destruct (Z.eqb_spec so 0) as [E|E]; cbn [negb]; [exact N|]. repeat (split; [assumption|]). intros; contradiction.
  Qed.
  Lemma chosen_sep : separate_un (kin k) (kout k) a s out so n.
  Proof. destruct chosen_ok as (_ & H2 & H3 & _). rewrite H3. now apply (separate_un_weak sz). Qed.
  Lemma chosen_call :
    (forall h, ~ un_faults k a out n s so h m) /\
    (forall h m', un_ends k a out n s so h m m' ->
      (forall i, 0 <= i < n -> ld szo m' (out + i * so) = ld szo (urun k a out n s so m) (out + i * so)) /\
      (forall x, (forall i, 0 <= i < n -> ~ (out + i * so <= x < out + i * so + szo)) -> m' x = m x)) /\
    (forall T zz sched, WORK_ITEM_BIG <= n -> 0 <= T -> exists more m', un_ends k a out n s so (Threaded T zz (sched ++ more)) m m').
  Proof.
    destruct chosen_ok as (H1 & H2 & H3 & H4). pose proof chosen_sep as H5. split; [|split].
    - intros h. now apply un_call.
    - intros h m' H. rewrite <- H3. now apply (un_like_alone k H1) with (h := h).
    - intros T zz sched. now apply un_can_end.
  Qed.
End Chosen.

(** ---------- C73 ---------- *)
(** NumPy's answer r of unary ufunc u on x, an element of type t *)
Definition float_answer (u : uop) (f : fmt) (x r : Z) : Prop :=
  match u with
  | ABS => abs_value f x r
  | NEGATIVE => neg_value f x r
  | SIGN => (fnan f x -> fnan f r) /\ (~ fnan f x -> ~ fnan f r /\ fval f r = Z.sgn (fval f x) * fval f (f_one f))
  | _ => False
  end.
Definition is_answer (u : uop) (t : cty) (x r : Z) : Prop :=
  match u with
  | ISNAN | ISINF | ISFINITE | ISNOTNAN | ISNOTFINITE | LOGICAL_NOT | SIGNBIT => (yes u t x /\ r = 1) \/ (~ yes u t x /\ r = 0)
  | _ => match t with I t => answers1 u t x r | FLOAT => float_answer u FLT x r | DOUBLE => float_answer u DBL x r end
  end.
(** the ufuncs and types with a replacement in the table (isnotfinite of integers excepted: C42) *)
Definition replaced_un (u : uop) (t : cty) : Prop :=
  match u, t with
  | (ISNAN | ISINF | ISFINITE | ISNOTNAN | LOGICAL_NOT), _ => True
  | (ISNOTFINITE | SIGNBIT), (FLOAT | DOUBLE) => True
  | (ABS | NEGATIVE | SIGN), (FLOAT | DOUBLE | I (INT64 | INT32 | INT16 | INT8)) => True
  | INVERT, I _ => True
  | _, _ => False
  end.
(** a value of the type: a bool is 0 or 1 *)
Definition proper (t : cty) (x : Z) : Prop := match t with I t => valid t x | _ => pat (csize t) x end.

Lemma un_alone u t enabled nop a out n s so m : 0 <= n ->
  urun (uchosen enabled (kGetUnaryOp u t) so (csize t) (out_size u t) nop) a out n s so m =
  if enabled then UnaryCall u t (numpy_loop (csize t) (out_size u t) nop) a out n s so m else numpy_loop (csize t) (out_size u t) nop a out n s so m.
Proof.
  intros Hn. pose proof (urun_table u t a out n s so m Hn) as H. unfold uchosen, UnaryCall.
  destruct (kGetUnaryOp u t) as [k|], (GetUnaryOp u t) as [f|]; try contradiction; destruct enabled; cbn [andb]; try reflexivity.
  destruct (Z.eqb_spec so 0); cbn [negb]; [reflexivity|exact H].
Qed.
Lemma yes_no_of u t a s out so n m m' :
  answered u t a s out so n m m' <->
  (forall i, 0 <= i < n -> (yes u t (ld (csize t) m (a + i * s)) /\ ld 1 m' (out + i * so) = 1) \/ (~ yes u t (ld (csize t) m (a + i * s)) /\ ld 1 m' (out + i * so) = 0)) /\
  (forall b, (forall i, 0 <= i < n -> ~ (out + i * so <= b < out + i * so + 1)) -> m' b = m b).
Proof.
  unfold answered. split; intros [A B]; (split; [|intros b Hb; apply B; intros i Hi]); try (intros i Hi; specialize (A i Hi); rewrite ?ld1 in *; exact A).
  - intros E. apply (Hb i Hi). lia.
  - specialize (Hb i Hi). lia.
Qed.
Lemma answer_alone u t enabled nop a out n s so m : replaced_un u t ->
  (forall x, pat (csize t) x -> pat (out_size u t) (nop x)) -> (forall x, proper t x -> is_answer u t x (nop x)) ->
  0 <= n -> bytes_ok m -> separate_un (csize t) (out_size u t) a s out so n ->
  (forall i, 0 <= i < n -> proper t (ld (csize t) m (a + i * s))) ->
  forall i, 0 <= i < n -> is_answer u t (ld (csize t) m (a + i * s))
    (ld (out_size u t) (urun (uchosen enabled (kGetUnaryOp u t) so (csize t) (out_size u t) nop) a out n s so m) (out + i * so)).
Proof.
  intros HR Hcl Hnop Hn Hm Hsc Hv. rewrite un_alone by exact Hn.
  pose proof (csize_pos t) as Hp. assert (Hq : 0 < out_size u t) by (destruct u; cbn [out_size]; lia).
  destruct (loop_outputs (csize t) (out_size u t) nop a out n s so m ltac:(lia) ltac:(lia) Hcl Hn Hm Hsc) as [L1 L2].
  assert (NA : forall i, 0 <= i < n -> is_answer u t (ld (csize t) m (a + i * s)) (ld (out_size u t) (numpy_loop (csize t) (out_size u t) nop a out n s so m) (out + i * so))).
  { intros i Hi. rewrite L1 by exact Hi. auto. }
  destruct enabled; [|exact NA].
  destruct (Z.eq_dec so 0) as [E0|E0].
  { assert (E1 : (so =? 0) = true) by (apply Z.eqb_eq, E0). unfold UnaryCall. rewrite E1. destruct (GetUnaryOp u t); exact NA. }
  set (np := numpy_loop (csize t) (out_size u t) nop) in *.
  assert (YN : out_size u t = 1 -> answered u t a s out so n m (UnaryCall u t np a out n s so m) ->
    forall i, 0 <= i < n -> (yes u t (ld (csize t) m (a + i * s)) /\ ld 1 (UnaryCall u t np a out n s so m) (out + i * so) = 1) \/ (~ yes u t (ld (csize t) m (a + i * s)) /\ ld 1 (UnaryCall u t np a out n s so m) (out + i * so) = 0)).
  { intros _ A. apply yes_no_of in A. apply A. }
  assert (K1 : known FLT) by now left. assert (K2 : known DBL) by now right.
  destruct u; cbn [out_size is_answer] in *.
  all: try (apply YN; [reflexivity|]; pose proof (sep_uop _ _ _ _ _ _ Hsc) as Hop;
    first [ apply C42_classification; [destruct t; first [exact HR|exact Logic.I]|exact Hn|exact Hm|exact Hop|intros; contradiction]
          | apply C53_yes_no; [first [now left|right; split; [reflexivity|]; destruct t; [contradiction|now left|now right]]|exact Hn|exact Hm|exact Hop|intros; contradiction] ]).
  all: pose proof (sep_outs _ _ _ _ _ _ _ Hsc) as So; pose proof (sep_clobber _ _ _ _ _ _ Hsc) as Sc.
  all: destruct t as [t| |].
  all: try match goal with |- forall i, _ -> answers1 ?u ?t _ _ =>
    refine (proj1 (C53_integer_unary u t np a out n s so m _ Hn Hm So Sc Hv (fun E => False_ind _ (E0 E)))); destruct t; exact HR end.
  all: try contradiction.
  - exact (proj1 (C43_float_values_partial ABS FLT np a out n s so m K1 (or_introl eq_refl) Hn E0 Hm So Sc)).
  - exact (proj1 (C43_float_values_partial ABS DBL np a out n s so m K2 (or_introl eq_refl) Hn E0 Hm So Sc)).
  - exact (proj1 (C43_float_values_partial NEGATIVE FLT np a out n s so m K1 (or_intror eq_refl) Hn E0 Hm So Sc)).
  - exact (proj1 (C43_float_values_partial NEGATIVE DBL np a out n s so m K2 (or_intror eq_refl) Hn E0 Hm So Sc)).
  - intros i Hi. destruct (proj1 (C53_float_sign FLT np a out n s so m K1 Hn E0 Hm So Sc) i Hi) as [A B]. split; [|exact B]. intros N. specialize (A N). cbv zeta in A. change (fnan FLT (ld (fsize FLT) (UnaryCall SIGN (fty FLT) np a out n s so m) (out + i * so))). rewrite A. exact N.
  - intros i Hi. destruct (proj1 (C53_float_sign DBL np a out n s so m K2 Hn E0 Hm So Sc) i Hi) as [A B]. split; [|exact B]. intros N. specialize (A N). cbv zeta in A. change (fnan DBL (ld (fsize DBL) (UnaryCall SIGN (fty DBL) np a out n s so m) (out + i * so))). rewrite A. exact N.
Qed.

(** C73.  Every unary ufunc and type in the table; pnumpy's loop or NumPy's ([nop], any function that gives NumPy's
    answer); every length, stride and content; alone or on any number of workers in any interleaving of byte accesses:
    no fault, every output is the answer for the ORIGINAL element at its position, no other byte changes, and a threaded
    call can always still be brought to return.  The array may be its own output. *)
Theorem C73_unary_ufuncs :
  forall (u : uop) (t : cty) (enabled : bool) (nop : Z -> Z) (a out n s so : Z) (m : bytes),
    replaced_un u t ->
    (forall x, pat (csize t) x -> pat (out_size u t) (nop x)) -> (forall x, proper t x -> is_answer u t x (nop x)) ->
    0 <= n -> bytes_ok m -> separate_un (csize t) (out_size u t) a s out so n ->
    (forall i, 0 <= i < n -> proper t (ld (csize t) m (a + i * s))) ->
    let k := uchosen enabled (kGetUnaryOp u t) so (csize t) (out_size u t) nop in
    (forall h, ~ un_faults k a out n s so h m) /\
    (forall h m', un_ends k a out n s so h m m' ->
      (forall i, 0 <= i < n -> is_answer u t (ld (csize t) m (a + i * s)) (ld (out_size u t) m' (out + i * so))) /\
      (forall b, (forall i, 0 <= i < n -> ~ (out + i * so <= b < out + i * so + out_size u t)) -> m' b = m b)) /\
    (forall T zz sched, WORK_ITEM_BIG <= n -> 0 <= T -> exists more m', un_ends k a out n s so (Threaded T zz (sched ++ more)) m m').
Proof.
  intros u t enabled nop a out n s so m HR Hcl Hnop Hn Hm Hsc Hv k.
  assert (Hq : 0 < out_size u t) by (pose proof (csize_pos t); destruct u; cbn [out_size]; lia).
  destruct (chosen_call (kGetUnaryOp u t) (csize t) (out_size u t) nop (csize_pos t) Hq (un_table u t) Hcl enabled a out n s so m Hn Hm Hsc) as (C1 & C2 & C3).
  fold k in C1, C2, C3. split; [exact C1|]. split; [|exact C3].
  intros h m' H. destruct (C2 h m' H) as [D1 D2]. split; [|exact D2].
  intros i Hi. rewrite D1 by exact Hi. now apply answer_alone.
Qed.
Print Assumptions C73_unary_ufuncs.

(** np.floor, np.ceil, np.trunc, and np.rint of float64 (which rounds halfway cases away from zero: C52). *)
Theorem C73_rounding :
  forall (r : rop) (f : fmt) (enabled : bool) (nop : Z -> Z) (a out n s so : Z) (m : bytes),
    known f -> (r = ROUND -> f = DBL) ->
    (forall x, pat (fsize f) x -> pat (fsize f) (nop x) /\ rounded (P_op r) f x (nop x)) ->
    0 <= n -> bytes_ok m -> separate_un (fsize f) (fsize f) a s out so n ->
    let k := uchosen enabled (kGetRoundOp r (fty f)) so (fsize f) (fsize f) nop in
    (forall h, ~ un_faults k a out n s so h m) /\
    (forall h m', un_ends k a out n s so h m m' -> rounded_all (P_op r) f a s out so n m m') /\
    (forall T zz sched, WORK_ITEM_BIG <= n -> 0 <= T -> exists more m', un_ends k a out n s so (Threaded T zz (sched ++ more)) m m').
Proof.
  intros r f enabled nop a out n s so m K HR Hnop Hn Hm Hsc k.
  assert (Hs : 0 < fsize f) by (destruct K as [-> | ->]; reflexivity).
  assert (Ec : csize (fty f) = fsize f) by (destruct K as [-> | ->]; reflexivity).
  assert (Hf : forall k, kGetRoundOp r (fty f) = Some k -> uregular k /\ kin k <= fsize f /\ kout k = fsize f).
  { intros k0 E0. destruct (round_table _ _ _ E0) as (A & B & C). rewrite Ec in B, C. split; [exact A|]. split; [lia|exact C]. }
  destruct (chosen_call _ (fsize f) (fsize f) nop Hs Hs Hf (fun x Hx => proj1 (Hnop x Hx)) enabled a out n s so m Hn Hm Hsc) as (C1 & C2 & C3).
  fold k in C1, C2, C3. split; [exact C1|]. split; [|exact C3].
  intros h m' H. destruct (C2 h m' H) as [D1 D2]. split; [|exact D2]. intros i Hi. rewrite D1 by exact Hi.
  set (np := numpy_loop (fsize f) (fsize f) nop).
  assert (NA : rounded_all (P_op r) f a s out so n m (np a out n s so m)).
  { destruct (loop_outputs (fsize f) (fsize f) nop a out n s so m ltac:(lia) ltac:(lia) (fun x Hx => proj1 (Hnop x Hx)) Hn Hm Hsc) as [L1 L2].
    split; [|exact L2]. intros j Hj. unfold np. rewrite L1 by exact Hj. apply Hnop, ld_pat; [lia|exact Hm]. }
  assert (E : urun k a out n s so m = if enabled then RoundCall r (fty f) np a out n s so m else np a out n s so m).
  { unfold k, uchosen, RoundCall. destruct enabled; [|now destruct (kGetRoundOp r (fty f))]. cbn [andb].
    destruct r, K as [-> | ->]; cbn [kGetRoundOp GetRoundOp fty]; try (destruct (so =? 0); reflexivity); reflexivity. }
  rewrite E. destruct enabled; [|apply NA, Hi].
  exact (proj1 (C52_rounding r f np a out n s so m K HR Hn Hm (sep_outs _ _ _ _ _ _ _ Hsc) (sep_clobber _ _ _ _ _ _ Hsc) (fun _ => NA)) i Hi).
Qed.
Print Assumptions C73_rounding.

(** np.sin, np.cos, np.exp, np.log (and the ufuncs without a kernel, on NumPy's loop): on worker threads each output holds,
    bit for bit, what the unthreaded call TrigCall leaves there (so C58-C64 hold of threaded calls too). *)
Theorem C73_trig :
  forall (u : top) (f : fmt) (libm nop : Z -> Z) (a out n s so : Z) (m : bytes),
    known f -> scalar_fun f libm -> scalar_fun f nop -> 0 <= n -> bytes_ok m -> separate_un (fsize f) (fsize f) a s out so n ->
    let k := uchosen true (kGetTrigOp u f libm) so (fsize f) (fsize f) nop in
    let alone := TrigCall u f libm (numpy_loop (fsize f) (fsize f) nop) a out n s so m in
    (forall h, ~ un_faults k a out n s so h m) /\
    (forall h m', un_ends k a out n s so h m m' ->
      (forall i, 0 <= i < n -> ld (fsize f) m' (out + i * so) = ld (fsize f) alone (out + i * so)) /\
      (forall b, (forall i, 0 <= i < n -> ~ (out + i * so <= b < out + i * so + fsize f)) -> m' b = m b)) /\
    (forall T zz sched, WORK_ITEM_BIG <= n -> 0 <= T -> exists more m', un_ends k a out n s so (Threaded T zz (sched ++ more)) m m').
Proof.
  intros u f libm nop a out n s so m K Hl Hnop Hn Hm Hsc k alone.
  assert (Hs : 0 < fsize f) by (destruct K as [-> | ->]; reflexivity).
  assert (Hf : forall k, kGetTrigOp u f libm = Some k -> uregular k /\ kin k <= fsize f /\ kout k = fsize f).
  { intros k0 E0. destruct (trig_table _ _ _ _ K Hl E0) as (A & B & C). split; [exact A|]. split; [lia|exact C]. }
  assert (Hcl : forall x, pat (fsize f) x -> pat (fsize f) (nop x)) by (intros x; rewrite !fpat by exact K; apply Hnop).
  destruct (chosen_call _ (fsize f) (fsize f) nop Hs Hs Hf Hcl true a out n s so m Hn Hm Hsc) as (C1 & C2 & C3).
  fold k in C1, C2, C3. split; [exact C1|]. split; [|exact C3].
  assert (E : urun k a out n s so m = alone).
  { unfold k, alone, uchosen, TrigCall, kGetTrigOp. destruct (trig_lane u f); cbn [andb]; [|reflexivity]. destruct (so =? 0); reflexivity. }
  rewrite E in C2. exact C2.
Qed.
Print Assumptions C73_trig.

(** Whichever of two executions of the same call was threaded: the same bytes in the outputs, and nothing else written. *)
Theorem C73_threading_invisible :
  forall (u : uop) (t : cty) (enabled : bool) (nop : Z -> Z) (a out n s so : Z) (m : bytes) h h' m1 m2,
    (forall x, pat (csize t) x -> pat (out_size u t) (nop x)) ->
    0 <= n -> bytes_ok m -> separate_un (csize t) (out_size u t) a s out so n ->
    un_ends (uchosen enabled (kGetUnaryOp u t) so (csize t) (out_size u t) nop) a out n s so h m m1 ->
    un_ends (uchosen enabled (kGetUnaryOp u t) so (csize t) (out_size u t) nop) a out n s so h' m m2 ->
    (forall i, 0 <= i < n -> ld (out_size u t) m1 (out + i * so) = ld (out_size u t) m2 (out + i * so)) /\
    (forall b, (forall i, 0 <= i < n -> ~ (out + i * so <= b < out + i * so + out_size u t)) -> m1 b = m2 b).
Proof.
  intros u t enabled nop a out n s so m h h' m1 m2 Hcl Hn Hm Hsc H1 H2.
  assert (Hq : 0 < out_size u t) by (pose proof (csize_pos t); destruct u; cbn [out_size]; lia).
  destruct (chosen_call (kGetUnaryOp u t) (csize t) (out_size u t) nop (csize_pos t) Hq (un_table u t) Hcl enabled a out n s so m Hn Hm Hsc) as (_ & C2 & _).
  destruct (C2 h m1 H1) as [A1 A2]. destruct (C2 h' m2 H2) as [B1 B2]. split.
  - intros i Hi. rewrite A1, B1 by exact Hi. reflexivity.
  - intros b Hb. rewrite A2, B2 by exact Hb. reflexivity.
Qed.

(** The hypotheses: np.negative of 100000 int32 in place, and np.isnan of 100000 float64; three workers; both return. *)
Example C73_nonvacuous :
  separate_un 4 4 4096 4 4096 4 100000 /\ separate_un 8 1 4096 8 1000000 1 100000 /\
  (exists sched m', un_ends (uchosen true (kGetUnaryOp NEGATIVE (I INT32)) 4 4 4 (i_neg 32)) 4096 4096 100000 4 4 (Threaded 3 true sched) (fun _ => 7) m') /\
  (exists sched m', un_ends (uchosen true (kGetUnaryOp ISNAN DOUBLE) 1 8 1 (fun x => b2z (c_isnan DBL x))) 4096 1000000 100000 8 1 (Threaded 3 true sched) (fun _ => 7) m').
Proof.
  assert (S1 : separate_un 4 4 4096 4 4096 4 100000) by (intros i j; intros; unfold away; lia).
  assert (S2 : separate_un 8 1 4096 8 1000000 1 100000) by (intros i j; intros; unfold away; lia).
  assert (B : bytes_ok (fun _ => 7)) by (intros x; lia).
  assert (C1 : forall x, pat 4 x -> pat 4 (i_neg 32 x)) by (intros x Hx; exact (scalar_closed NEGATIVE INT32 x Hx)).
  split; [exact S1|]. split; [exact S2|]. split.
  - destruct (chosen_call (kGetUnaryOp NEGATIVE (I INT32)) 4 4 (i_neg 32) ltac:(lia) ltac:(lia) (un_table NEGATIVE (I INT32)) C1 true 4096 4096 100000 4 4 (fun _ => 7) ltac:(lia) B S1) as (_ & _ & H).
    destruct (H 3 true [] ltac:(unfold WORK_ITEM_BIG, WORK_ITEM_CHUNK; lia) ltac:(lia)) as (more & m' & Hc). exists more, m'. exact Hc.
  - destruct (chosen_call (kGetUnaryOp ISNAN DOUBLE) 8 1 (fun x => b2z (c_isnan DBL x)) ltac:(lia) ltac:(lia) (un_table ISNAN DOUBLE) (fun x _ => b2z_pat1 _) true 4096 1000000 100000 8 1 (fun _ => 7) ltac:(lia) B S2) as (_ & _ & H).
    destruct (H 3 true [] ltac:(unfold WORK_ITEM_BIG, WORK_ITEM_CHUNK; lia) ltac:(lia)) as (more & m' & Hc). exists more, m'. exact Hc.
Qed.
