(** Trig_Exp.v - how close np.exp comes to e^x (C59, C63). *)
From Coq Require Import Reals Lra.
From Verif Require Import Base Kernel_Model Kernel_Proofs Kernel_Props Float_Model Compare_Model Compare_Proofs Compare_Props Unary_Model Unary_Proofs Unary_Props UnaryVal_Props Round_Model Round_Props Arith_Model Arith_Props Trig_Model Trig_Props Exp_Bounds Trig_Real Trig_Near.

(** ---------- the polynomial against e^r ---------- *)
Definition exp_poly (r : R) : R :=
  (((((((19875691500 / 100000000000000 * r + 13981999507 / 10000000000000) * r + 83334519073 / 10000000000000) * r + 41665795894 / 1000000000000) * r + 16666665459 / 100000000000) * r + 50000001201 / 100000000000) * (r * r) + r) + 1)%R.
Lemma exp_poly_close r : (Rabs r <= 3467 / 10000 -> Rabs (exp_poly r - exp r) <= 6 / 100000000)%R.
Proof.
  intros Hr. pose proof (exp_taylor r 7 ltac:(lra)) as T. rewrite E1_ext in T.
  assert (T8 : (2 * term r 8 <= 105 / 10000000000)%R).
  { unfold term. pose proof (Rabs_pow_le r (3467 / 10000) 8 Hr) as P. rewrite !fact_simpl, !mult_INR. change (fact 0) with 1%nat. rewrite !INR_IZR_INZ. rewrite <- !mult_IZR. match goal with |- context [IZR ?z] => match z with (_ * _)%Z => change z with 40320%Z end end.
    set (a := (Rabs r ^ 8)%R) in *. cbn [pow] in P. lra. }
  assert (Q : forall j, (Rabs (r ^ j) <= (3467 / 10000) ^ j)%R) by (intros j; rewrite <- RPow_abs; now apply Rabs_pow_le).
  pose proof (Q 2%nat) as Q2. pose proof (Q 3%nat) as Q3. pose proof (Q 4%nat) as Q4. pose proof (Q 5%nat) as Q5. pose proof (Q 6%nat) as Q6. pose proof (Q 7%nat) as Q7. clear Q.
  apply Rabs_le3 in Q2, Q3, Q4, Q5, Q6, Q7, T.
  assert (E : (exp_poly r - (1 + r + r * r * (1 / 2 + r * (1 / 6 + r * (1 / 24 + r * (1 / 120 + r * (1 / 720 + r * (1 / 5040)))))))
    = (50000001201 / 100000000000 - 1 / 2) * r ^ 2 + (16666665459 / 100000000000 - 1 / 6) * r ^ 3 + (41665795894 / 1000000000000 - 1 / 24) * r ^ 4 + (83334519073 / 10000000000000 - 1 / 120) * r ^ 5
      + (13981999507 / 10000000000000 - 1 / 720) * r ^ 6 + (19875691500 / 100000000000000 - 1 / 5040) * r ^ 7)%R) by (unfold exp_poly; field).
  apply le_Rabs. set (p := exp_poly r) in *. clearbody p. set (t := (1 + r + _)%R) in *. clearbody t.
  set (r2 := (r ^ 2)%R) in *; set (r3 := (r ^ 3)%R) in *; set (r4 := (r ^ 4)%R) in *; set (r5 := (r ^ 5)%R) in *; set (r6 := (r ^ 6)%R) in *; set (r7 := (r ^ 7)%R) in *.
  clearbody r2 r3 r4 r5 r6 r7. cbn [pow] in *. lra.
Qed.

(** ---------- exp256, both formats ---------- *)
Ltac scl := unfold sc; change S80 with 1208925819614629174706176%Z; lra.
Ltac norm H := match type of H with nb ?f ?x ?v ?e ?B => let e' := eval vm_compute in e in let B' := eval vm_compute in B in change (nb f x v e' B') in H end.
Ltac mulr K P H := let T := fresh in pose proof (nb_mul _ K _ _ _ _ _ _ _ _ P H eq_refl) as T; clear P; rename T into P; norm P.
Ltac addr K P H := let T := fresh in pose proof (nb_add _ K _ _ _ _ _ _ _ _ P H eq_refl) as T; clear P; rename T into P; norm P.
(** the unsimplified sc of a bound given as a fraction, rounded up *)
Definition up (a b : Z) : Z := (a * S80 / b + 1)%Z.

Section Exp.
  Variable f : fmt.
  Hypothesis K : known f.

  (** what is left of x after the clamps *)
  Lemma exp_unclamped x : fin f x -> (Rabs (real f x) <= 8837 / 100)%R -> f_max f (f_min f x (exp_hi f)) (exp_lo f) = x.
  Proof.
    intros Fx B. apply Rabs_le3 in B. destruct (fin_mag f K x Fx) as (_ & N & _). destruct (hi_facts f K) as (H1 & H2 & _).
    assert (N' : ~ fnan f x) by (intros C; apply (class_nan f K) in C; congruence).
    assert (V : (8837 * one_val f <= 100 * fval f (exp_hi f) - 1 /\ 100 * fval f (exp_lo f) + 1 <= - 8837 * one_val f)%Z) by (destruct K as [-> | ->]; vm_compute; split; discriminate).
    assert (X : (- 8837 * one_val f <= 100 * fval f x <= 8837 * one_val f)%Z).
    { pose proof (o_pos f K). pose proof (fval_real f K x) as E. split; apply le_IZR; rewrite !mult_IZR, E; nra. }
    unfold f_min. rewrite (bool_true _ _ (lt_iff f x (exp_hi f) K)) by (split; [assumption|split; [assumption|lia]]).
    unfold f_max. rewrite (bool_true _ _ (gt_iff f x (exp_lo f) K)) by (split; [assumption|split; [assumption|lia]]). reflexivity.
  Qed.

  (** multiplying an integer of at most 8 bits by a 9-bit constant is exact *)
  Lemma C1_exact y n : fin f y -> real f y = IZR n -> (Z.abs n <= 128)%Z -> fin f (f_mul f y (exp_C1 f)) /\ real f (f_mul f y (exp_C1 f)) = (IZR n * (355 / 512))%R.
  Proof.
    intros Fy E Hn. assert (FC : fin f (exp_C1 f) /\ (512 * fval f (exp_C1 f) = 355 * one_val f)%Z).
    { destruct K as [-> | ->]; (split; [split; [vm_compute; split; congruence|intros C; vm_compute in C; discriminate]|vm_compute; reflexivity]). }
    destruct FC as [FC VC]. destruct (uv f K) as [U1 U2].
    assert (VY : fval f y = (n * one_val f)%Z) by (apply eq_IZR; rewrite mult_IZR, (fval_real f K), E; reflexivity).
    destruct (repr f K (if isF f then 140 else 1065) ltac:(destruct (isF f); lia) (Z.abs n * 355)) as (g & G1 & G2).
    { destruct K as [-> | ->]; cbn; lia. }
    { apply Z.le_trans with (45440 * 2 ^ (if isF f then 140 else 1065))%Z; [apply Z.mul_le_mono_nonneg_r; [destruct (isF f); lia|lia]|destruct K as [-> | ->]; vm_compute; discriminate]. }
    assert (O : one_val f = (512 * 2 ^ (if isF f then 140 else 1065))%Z) by (destruct K as [-> | ->]; vm_compute; reflexivity).
    destruct (mul_exact f K y (exp_C1 f) g Fy FC G1) as [A V].
    { rewrite G2, VY. replace (n * one_val f * fval f (exp_C1 f))%Z with (n * 355 * 2 ^ (if isF f then 140 else 1065) * one_val f)%Z.
      - rewrite !Z.abs_mul. rewrite (Z.abs_eq (one_val f)), (Z.abs_eq (2 ^ _)) by (try lia; destruct (isF f); lia). change (Z.abs 355) with 355%Z. reflexivity.
      - set (c := fval f (exp_C1 f)) in *. set (q := (2 ^ (if isF f then 140 else 1065))%Z) in *. nia. }
    split; [exact A|]. pose proof (o_pos f K) as OP. apply IZR_eq in V. apply IZR_eq in VC. rewrite !mult_IZR, VY, mult_IZR, !(fval_real f K) in V. rewrite !mult_IZR, (fval_real f K) in VC.
    set (o := IZR (one_val f)) in *. assert (CC : real f (exp_C1 f) = (355 / 512)%R) by nra. rewrite CC in V. apply Rmult_eq_reg_r with (o * o)%R; nra.
  Qed.
  Lemma sub_zero x : fin f x -> fin f (f_sub f x 0) /\ real f (f_sub f x 0) = real f x.
  Proof.
    intros F. destruct (fval0 f K) as [Z0 _]. assert (F0 : fin f 0) by (apply (fin_of_val f K); [destruct K as [-> | ->]; vm_compute; split; congruence|rewrite Z0; destruct K as [-> | ->]; vm_compute; discriminate]).
    destruct (flip_fin f K 0 F0) as [FF VF]. destruct (fin_mag f K x F) as (M & _). unfold f_sub.
    destruct (add_exact f K x (f_flip f 0) (fmag f x) F FF M) as [A V].
    { rewrite VF, Z0, Z.add_0_r, (abs_fval f K), (mv_mag f). reflexivity. }
    split; [exact A|]. unfold real. now rewrite V, VF, Z0, Z.add_0_r.
  Qed.
  (** the integer nearest to x/ln 2, as the kernel finds it *)
  Lemma exp_floor a : fin f a -> (Rabs (real f a) <= 200)%R -> let t := f_round TowardMinus f a in let fx := f_sub f t (Z.land (mask f (f_gt f t a)) (c_one f)) in
    exists n, fin f fx /\ real f fx = IZR n /\ (IZR n <= real f a < IZR n + 1)%R.
  Proof.
    intros Fa Ba t fx. destruct (r_floor f K a Fa) as (n & Ft & Et & L). { eapply Rle_trans; [exact Ba|]. apply IZR_le. vm_compute. discriminate. }
    fold t in Ft, Et. assert (G : f_gt f t a = false).
    { apply (bool_false _ _ (gt_iff f t a K)). intros (_ & _ & C). assert (real f t <= real f a)%R by (rewrite Et; lra). apply (real_le f K) in H. lia. }
    exists n. unfold fx. rewrite G. cbn [mask]. rewrite Z.land_0_l. destruct (sub_zero t Ft) as [A V]. rewrite V. auto.
  Qed.

  Definition ln2c : R := (693359375 / 1000000000 - 212194440 / 1000000000000)%R.
  Lemma ln2c_close : (Rabs (ln 2 - ln2c) <= 1 / 10000000000000)%R.
  Proof. pose proof ln2_bounds. unfold ln2_lo, ln2_hi, ln2c in *. apply le_Rabs. lra. Qed.

  (** x / ln 2 + 1/2, as the kernel computes it *)
  Definition exp_arg (x : Z) : Z := f_add f (f_mul f x (c_LOG2EF f)) (c_0p5 f).
  (** exp256 in terms of an integer n and the reduced argument *)
  Lemma exp_core x : fin f x -> f_max f (f_min f x (exp_hi f)) (exp_lo f) = x -> (Rabs (real f x) <= 8838 / 100)%R ->
    exists n fx y, exp256 f x = f_mul f y (i_slli f (i_addl f (to_int f fx) (c_0x7f f)) (mant_shift f)) /\
      fin f fx /\ real f fx = IZR n /\ (IZR n <= real f (exp_arg x) < IZR n + 1)%R /\ (Z.abs n <= 128)%Z /\ (Rabs (real f x - IZR n * ln 2) <= 3467 / 10000)%R /\
      (Rabs (real f x * (144269504088896341 / 100000000000000000) - IZR n) <= 1/2 + 3 / 100000)%R /\
      fin f y /\ (Rabs (real f y - exp (real f x - IZR n * ln 2)) <= 32 / 100000000)%R.
  Proof.
    intros Fx CL Bx. unfold exp256. cbv zeta. rewrite CL.
    set (a := f_add f (f_mul f x (c_LOG2EF f)) (c_0p5 f)). set (fx := f_sub f (f_round TowardMinus f a) _).
    assert (HX : nb f x (real f x) 0 (up 8838 100)).
    { apply nb_exact; auto. eapply Rle_trans; [exact Bx|]. change (up 8838 100) with (ltac:(let z := eval vm_compute in (up 8838 100) in exact z)). scl. }
    pose proof (nb_lit f K 144269504088896341 100000000000000000 eq_refl eq_refl) as HL. norm HL. change (lit f 144269504088896341 100000000000000000) with (c_LOG2EF f) in HL.
    pose proof (nb_mul f K _ _ _ _ _ _ _ _ HX HL eq_refl) as H1. norm H1.
    pose proof (nb_lit f K 1 2 eq_refl eq_refl) as HH. norm HH. change (lit f 1 2) with (c_0p5 f) in HH.
    pose proof (nb_add f K _ _ _ _ _ _ _ _ H1 HH eq_refl) as H2. norm H2. clear H1. fold a in H2. destruct H2 as (Fa & Ea & Ba).
    set (L := (144269504088896341 / 100000000000000000)%R) in *. set (X := real f x) in *.
    assert (E1 : (Rabs (real f a - (X * L + 1 / 2)) <= 3 / 100000)%R) by (eapply Rle_trans; [exact Ea|scl]). clear Ea Ba HL HH. apply Rabs_le3 in E1.
    assert (BXL : (Rabs (X * L) <= 12751 / 100)%R) by (rewrite Rabs_mult, (Rabs_pos_eq L) by (unfold L; lra); unfold L in *; lra). apply Rabs_le3 in BXL.
    destruct (exp_floor a Fa) as (n & Ffx & Efx & Ln); [apply le_Rabs; lra|]. fold fx in Ffx, Efx.
    assert (Hn : (Z.abs n <= 128)%Z).
    { assert (IZR n < IZR 129)%R by lra. assert (IZR (-129) < IZR n)%R by lra. apply lt_IZR in H, H0. lia. }
    assert (N1 : (Rabs (IZR n) <= 128)%R) by (rewrite <- abs_IZR; now apply IZR_le).
    assert (D : (Rabs (X * L - IZR n) <= 1 / 2 + 3 / 100000)%R) by (apply le_Rabs; lra).
    pose proof ln2_bounds as LB. pose proof ln2c_close as LC.
    set (r := (X - IZR n * ln 2)%R).
    assert (Br : (Rabs r <= 34662 / 100000)%R).
    { assert (Q : (r * L = (X * L - IZR n) + IZR n * (1 - L * ln 2))%R) by (unfold r; ring).
      assert (Q2 : (Rabs (IZR n * (1 - L * ln 2)) <= 128 * (1 / 1000000000000))%R).
      { rewrite Rabs_mult. apply Rmult_le_compat; auto using Rabs_pos. apply le_Rabs. unfold L, ln2_lo, ln2_hi in *. lra. }
      assert (Q3 : (Rabs (r * L) <= 1 / 2 + 3 / 100000 + 128 * (1 / 1000000000000))%R) by (rewrite Q; eapply Rle_trans; [apply Rabs_triang|lra]).
      rewrite Rabs_mult, (Rabs_pos_eq L) in Q3 by (unfold L; lra). unfold L in Q3. lra. }
    (* the reduced argument *)
    destruct (C1_exact fx n Ffx Efx Hn) as [FT ET].
    assert (BT : (Rabs (IZR n * (355 / 512)) <= 90)%R) by (rewrite Rabs_mult, (Rabs_pos_eq (355 / 512)) by lra; lra).
    assert (HT : nb f (f_mul f fx (exp_C1 f)) (IZR n * (355 / 512)) 0 (up 90 1)).
    { apply nb_exact; auto. eapply Rle_trans; [exact BT|]. change (up 90 1) with (ltac:(let z := eval vm_compute in (up 90 1) in exact z)). scl. }
    assert (HN : nb f fx (IZR n) 0 (up 128 1)).
    { apply nb_exact; auto. eapply Rle_trans; [exact N1|]. change (up 128 1) with (ltac:(let z := eval vm_compute in (up 128 1) in exact z)). scl. }
    assert (Lc : (ln 2 = ln2c + (ln 2 - ln2c))%R) by ring. set (dl := (ln 2 - ln2c)%R) in *.
    assert (Bn : (Rabs (IZR n * dl) <= 128 * (1 / 10000000000000))%R) by (rewrite Rabs_mult; apply Rmult_le_compat; auto using Rabs_pos).
    assert (Bc : (Rabs (IZR n * (212194440 / 1000000000000)) <= 128 * (212194440 / 1000000000000))%R) by (rewrite Rabs_mult, (Rabs_pos_eq (212194440 / 1000000000000)) by lra; apply Rmult_le_compat_r; lra).
    apply Rabs_le3 in Bn, Bc. pose proof (Rabs_le3 _ _ Br) as Br'.
    assert (R1 : (X - IZR n * (355 / 512) = r + IZR n * dl - IZR n * (212194440 / 1000000000000))%R) by (unfold r, dl, ln2c; field).
    pose proof (nb_sub_b f K (up 3739 10000) _ _ _ _ _ _ _ _ HX HT) as H3.
    specialize (H3 ltac:(rewrite R1; apply le_Rabs; change (up 3739 10000) with (ltac:(let z := eval vm_compute in (up 3739 10000) in exact z)); scl) eq_refl). norm H3.
    pose proof (nb_lit f K (-212194440) 1000000000000 eq_refl eq_refl) as HC. norm HC. change (lit f (-212194440) 1000000000000) with (exp_C2 f) in HC.
    pose proof (nb_mul f K _ _ _ _ _ _ _ _ HN HC eq_refl) as H4. norm H4.
    pose proof (nb_sub_b f K (up 34663 100000) _ _ _ _ _ _ _ _ H3 H4) as H5.
    assert (R2 : (X - IZR n * (355 / 512) - IZR n * (-212194440 / 1000000000000) = r + IZR n * dl)%R) by lra.
    specialize (H5 ltac:(rewrite R2; apply le_Rabs; change (up 34663 100000) with (ltac:(let z := eval vm_compute in (up 34663 100000) in exact z)); scl) eq_refl). norm H5.
    set (xr := f_sub f (f_sub f x (f_mul f fx (exp_C1 f))) (f_mul f fx (exp_C2 f))) in *. clearbody xr. rewrite R2 in H5. clear H3 H4 HC HT HN.
    assert (HR : nb f xr r 60000000000000000 (up 34662 100000)).
    { eapply (nb_shift f xr _ r _ _ _ _ (up 2 100000000000) (up 34662 100000) H5); try reflexivity.
      - replace (r + IZR n * dl - r)%R with (IZR n * dl)%R by ring. apply le_Rabs. change (up 2 100000000000) with (ltac:(let z := eval vm_compute in (up 2 100000000000) in exact z)). scl.
      - eapply Rle_trans; [exact Br|]. change (up 34662 100000) with (ltac:(let z := eval vm_compute in (up 34662 100000) in exact z)). scl. }
    clear H5. unfold horner, exp_ps. cbn [fold_left].
    pose proof (nb_lit f K 19875691500 100000000000000 eq_refl eq_refl) as P. norm P. change (lit f 19875691500 100000000000000) with (exp_p0 f) in P.
    mulr K P HR.
    pose proof (nb_lit f K 13981999507 10000000000000 eq_refl eq_refl) as Q. norm Q. change (lit f 13981999507 10000000000000) with (lit f 13981999507 (10 ^ 13)) in Q.
    addr K P Q. clear Q.
    mulr K P HR.
    pose proof (nb_lit f K 83334519073 10000000000000 eq_refl eq_refl) as Q. norm Q. change (lit f 83334519073 10000000000000) with (lit f 83334519073 (10 ^ 13)) in Q.
    addr K P Q. clear Q.
    mulr K P HR.
    pose proof (nb_lit f K 41665795894 1000000000000 eq_refl eq_refl) as Q. norm Q. change (lit f 41665795894 1000000000000) with (lit f 41665795894 (10 ^ 12)) in Q.
    addr K P Q. clear Q.
    mulr K P HR.
    pose proof (nb_lit f K 16666665459 100000000000 eq_refl eq_refl) as Q. norm Q. change (lit f 16666665459 100000000000) with (lit f 16666665459 (10 ^ 11)) in Q.
    addr K P Q. clear Q.
    mulr K P HR.
    pose proof (nb_lit f K 50000001201 100000000000 eq_refl eq_refl) as Q. norm Q. change (lit f 50000001201 100000000000) with (lit f 50000001201 (10 ^ 11)) in Q.
    addr K P Q. clear Q.
    pose proof (nb_mul f K _ _ _ _ _ _ _ _ HR HR eq_refl) as Q. norm Q.
    mulr K P Q. clear Q.
    addr K P HR.
    pose proof (nb_lit f K 1 1 eq_refl eq_refl) as Q. norm Q. change (lit f 1 1) with (c_one f) in Q.
    addr K P Q. clear Q.
    destruct P as (FY & EY & _). pose proof (exp_poly_close r ltac:(lra)) as PC. set (y := f_add f _ (c_one f)) in *.
    exists n, fx, y. split; [reflexivity|]. split; [exact Ffx|]. split; [exact Efx|]. split; [exact Ln|]. split; [exact Hn|]. split; [fold r; lra|]. split; [exact D|]. split; [exact FY|]. fold r.
    match type of EY with (Rabs (_ - ?v) <= _)%R => replace v with (exp_poly r) in EY by (unfold exp_poly; field) end.
    apply Rabs_le3 in EY, PC. apply le_Rabs. unfold sc in EY. change S80 with 1208925819614629174706176%Z in EY. lra.
  Qed.

  Lemma to_int_ok y n : fin f y -> real f y = IZR n -> (Z.abs n <= 128)%Z -> to_int f y = (n mod 2 ^ fwidth f)%Z.
  Proof.
    intros Fy E Hn. destruct (uv f K) as [U1 U2]. assert (VY : fval f y = (n * one_val f)%Z) by (apply eq_IZR; rewrite mult_IZR, (fval_real f K), E; reflexivity).
    unfold to_int. destruct (isF_iff f K) as [[EF ->]|[EF ->]].
    - destruct (fin_mag f K y Fy) as (_ & N & I). rewrite EF in *. unfold cvttps_epi32. rewrite N, I, U1. change (signed_value FLT y) with (fval FLT y). rewrite VY, Z.quot_mul by lia.
      destruct (Z.ltb_spec n (- 2 ^ 31)); [lia|]. destruct (Z.ltb_spec (2 ^ 31 - 1) n); [lia|]. reflexivity.
    - rewrite EF in *. unfold double_to_int64. assert (MG : magic = 4843621399236968448%Z) by (vm_compute; reflexivity). rewrite MG.
      assert (O : one_val DBL = (2 ^ 1074)%Z) by (vm_compute; reflexivity).
      assert (FM : fin DBL 4843621399236968448 /\ fval DBL 4843621399236968448 = (6755399441055744 * one_val DBL)%Z).
      { split; [split; [vm_compute; split; congruence|intros C; vm_compute in C; discriminate]|vm_compute; reflexivity]. }
      destruct FM as [FM VM].
      assert (VG : mag_value DBL (4843621399236968448 + n) = ((6755399441055744 + n) * one_val DBL)%Z).
      { unfold mag_value. change (2 ^ fbits DBL)%Z with 4503599627370496%Z.
        replace ((4843621399236968448 + n) / 4503599627370496)%Z with 1075%Z by (apply (Z.div_unique _ _ _ (2251799813685248 + n)); lia).
        replace ((4843621399236968448 + n) mod 4503599627370496)%Z with (2251799813685248 + n)%Z by (apply (Z.mod_unique _ _ 1075); lia).
        change (1075 =? 0)%Z with false. cbv iota. rewrite O. change (1075 - 1)%Z with 1074%Z. f_equal. lia. }
      destruct (add_exact DBL K y 4843621399236968448 (4843621399236968448 + n) Fy FM) as [A V].
      { change (finf DBL) with 9218868437227405312%Z. lia. }
      { rewrite VG, VY, VM. lia. }
      assert (PE : f_add DBL y 4843621399236968448 = (4843621399236968448 + n)%Z).
      { assert (R : (0 <= 4843621399236968448 + n < 2 ^ fwidth DBL)%Z) by (change (2 ^ fwidth DBL)%Z with 18446744073709551616%Z; lia).
        assert (W : fval DBL (4843621399236968448 + n) = ((6755399441055744 + n) * one_val DBL)%Z).
        { rewrite <- VG. unfold fval, fneg. change (2 ^ (fwidth DBL - 1))%Z with 9223372036854775808%Z. destruct (Z.leb_spec 9223372036854775808 (4843621399236968448 + n)); [lia|].
          symmetry. apply (mv_small DBL). change (2 ^ (fwidth DBL - 1))%Z with 9223372036854775808%Z. lia. }
        apply (pat_unique DBL K); [apply A|exact R|rewrite V, W, VY, VM; lia|rewrite V, VY, VM; lia]. }
      rewrite PE. unfold i_subl. f_equal. lia.
  Qed.
  (** products up to the largest finite number *)
  Lemma r_mul_max x y : fin f x -> fin f y -> (Rabs (real f x * real f y) <= Rmax_fin f)%R ->
    fin f (f_mul f x y) /\ (Rabs (real f (f_mul f x y) - real f x * real f y) * IZR (2 ^ 24) <= Rabs (real f x * real f y) + / IZR (2 ^ 126))%R.
  Proof. apply (r_mul_gen f K). Qed.
End Exp.

(** ---------- powers of two ---------- *)
Lemma exp_two k : (0 <= k)%Z -> IZR (2 ^ k) = exp (IZR k * ln 2).
Proof.
  revert k. apply natlike_ind.
  - rewrite Rmult_0_l, exp_0. reflexivity.
  - intros k Hk IH. rewrite Z.pow_succ_r, mult_IZR, IH, succ_IZR, Rmult_plus_distr_r, exp_plus, Rmult_1_l, exp_ln by (lra || lia). ring.
Qed.
Lemma pow_pat f e : known f -> (0 < e < emax f)%Z -> fin f (e * 2 ^ fbits f) /\ real f (e * 2 ^ fbits f) = exp (IZR (e - bias f) * ln 2).
Proof.
  intros K He. pose proof (consts f K) as (c1 & c2 & c3 & c4 & c5 & c6 & c7).
  destruct (fields_of f K e 0 ltac:(lia) ltac:(lia) (e * 2 ^ fbits f)%Z ltac:(lia)) as (F1 & F2 & F3 & F4).
  assert (R : (0 <= e * 2 ^ fbits f < 2 ^ fwidth f)%Z).
  { replace (fwidth f) with (1 + (fwidth f - 1))%Z by lia. rewrite Z.pow_add_r by (destruct K as [-> | ->]; cbn; lia). rewrite c7. change (2 ^ 1)%Z with 2%Z. nia. }
  split; [split; [exact R|unfold finite_p; lia]|]. unfold real, fval, fabsval. rewrite F2, F3, F4. destruct (Z.eqb_spec e 0); [lia|].
  rewrite c4, Z.add_0_r, !mult_IZR, !exp_two by lia.
  replace (IZR (e - bias f)) with (IZR (e - 1) - IZR (bias f - 1))%R by (rewrite !minus_IZR; ring).
  rewrite Rmult_minus_distr_r. unfold Rminus. rewrite exp_plus, exp_Ropp. field. split; apply Rgt_not_eq, exp_pos.
Qed.
(** e^x from the reduced argument *)
Lemma exp_split x n : exp x = (exp (IZR n * ln 2) * exp (x - IZR n * ln 2))%R.
Proof. rewrite <- exp_plus. f_equal. ring. Qed.
Lemma exp_r_bounds r : (Rabs r <= 3467 / 10000 -> 707 / 1000 <= exp r <= 1415 / 1000)%R.
Proof.
  intros H. pose proof (exp_poly_close r H) as P. apply Rabs_le3 in P.
  assert (E : forall s, (Rabs s <= 3467 / 10000 -> 707 / 1000 <= exp s)%R).
  { intros s Hs. apply Rabs_le3 in Hs. assert (M : (exp (- (3467 / 10000)) <= exp s)%R) by (destruct (Rle_lt_or_eq_dec (- (3467 / 10000)) s) as [L|L]; [lra|left; now apply exp_increasing|right; now rewrite L]).
    pose proof (exp_poly_close (- (3467 / 10000))%R) as Q. assert (Q' : (Rabs (exp_poly (- (3467 / 10000)) - exp (- (3467 / 10000))) <= 6 / 100000000)%R) by (apply Q; apply le_Rabs; lra).
    apply Rabs_le3 in Q'. unfold exp_poly in Q'. lra. }
  split; [now apply E|]. pose proof (E (- r)%R ltac:(now rewrite Rabs_Ropp)) as E2. rewrite exp_Ropp in E2. pose proof (exp_pos r).
  assert (I : (exp r * / exp r = 1)%R) by (field; lra). nra.
Qed.
(** the product of y and a power of two *)
Lemma scaled f y p n r : known f -> fin f y -> fin f p -> real f p = exp (IZR n * ln 2) ->
  (Rabs r <= 3467 / 10000)%R -> (Rabs (real f y - exp r) <= 32 / 100000000)%R -> (exp (IZR n * ln 2) * (14151 / 10000) <= Rmax_fin f)%R -> (-126 <= n)%Z ->
  fin f (f_mul f y p) /\ (Rabs (real f (f_mul f y p) - exp (IZR n * ln 2) * exp r) <= 1 / 1000000 * (exp (IZR n * ln 2) * exp r))%R.
Proof.
  intros K Fy Fp Ep Br Ey Mx Hn. destruct (exp_r_bounds r Br) as [L U]. set (T := exp (IZR n * ln 2)) in *. pose proof (exp_pos (IZR n * ln 2)) as TP. fold T in TP.
  apply Rabs_le3 in Ey.
  assert (S : Rabs (real f y * real f p) = (real f y * T)%R) by (rewrite Ep; apply Rabs_pos_eq; nra).
  destruct (r_mul_gen f K y p Fy Fp) as [A E].
  { rewrite S. eapply Rle_trans; [|exact Mx]. nra. }
  split; [exact A|]. rewrite S, Ep in E.
  assert (TL : (/ IZR (2 ^ 126) <= T)%R).
  { unfold T. rewrite exp_two, <- exp_Ropp by lia. rewrite <- Ropp_mult_distr_l_reverse, <- opp_IZR.
    assert (G : (IZR (- (126)) * ln 2 <= IZR n * ln 2)%R) by (apply Rmult_le_compat_r; [pose proof ln2_bounds; unfold ln2_lo in *; lra|apply IZR_le; lia]).
    destruct (Rle_lt_or_eq_dec _ _ G) as [G'|G']; [left; now apply exp_increasing|right; now rewrite G']. }
  set (z := real f (f_mul f y p)) in *. set (e := exp r) in *. change (IZR (2 ^ 24)) with 16777216%R in E.
  assert (E2 : (Rabs (z - real f y * T) <= (real f y * T + T) / 16777216)%R) by lra.
  apply Rabs_le3 in E2. apply le_Rabs.
  assert (D : (- (32 / 100000000) * T <= real f y * T - T * e <= 32 / 100000000 * T)%R) by (split; nra).
  assert (Q : (real f y * T <= 1416 / 1000 * T)%R) by nra. assert (TE : (707 / 1000 * T <= T * e)%R) by nra. lra.
Qed.

(** ---------- the factor 2^n as the kernel builds it ---------- *)
Definition factor (f : fmt) (n : Z) : Z := (((n + c_0x7f f) * 2 ^ mant_shift f) mod 2 ^ fwidth f)%Z.
Lemma factor_is f fx n : known f -> to_int f fx = (n mod 2 ^ fwidth f)%Z -> i_slli f (i_addl f (to_int f fx) (c_0x7f f)) (mant_shift f) = factor f n.
Proof.
  intros K ->. unfold i_slli, i_addl, factor. pose proof (fw_pos f K). rewrite Z.add_mod_idemp_l by (apply Z.pow_nonzero; lia). rewrite Z.mul_mod_idemp_l by (apply Z.pow_nonzero; lia). reflexivity.
Qed.
Lemma factor_FLT n : (-126 <= n <= 127)%Z -> fin FLT (factor FLT n) /\ real FLT (factor FLT n) = exp (IZR n * ln 2).
Proof.
  intros Hn. assert (K : known FLT) by now left. assert (E : factor FLT n = ((n + 127) * 2 ^ fbits FLT)%Z).
  { unfold factor. change (c_0x7f FLT) with 127%Z. change (2 ^ mant_shift FLT)%Z with 8388608%Z. change (2 ^ fbits FLT)%Z with 8388608%Z. apply Z.mod_small. change (2 ^ fwidth FLT)%Z with 4294967296%Z. lia. }
  rewrite E. destruct (pow_pat FLT (n + 127) K) as [A B]; [change (emax FLT) with 255%Z; lia|]. split; [exact A|]. rewrite B. change (bias FLT) with 127%Z. do 3 f_equal. lia.
Qed.
Lemma factor_DBL n : (-128 <= n <= 0)%Z -> fin DBL (factor DBL n) /\ real DBL (factor DBL n) = exp (IZR (n + 1023) * ln 2).
Proof.
  intros Hn. assert (K : known DBL) by now right. assert (E : factor DBL n = ((n + 2046) * 2 ^ fbits DBL)%Z).
  { unfold factor. change (c_0x7f DBL) with 2046%Z. change (2 ^ mant_shift DBL)%Z with 4503599627370496%Z. change (2 ^ fbits DBL)%Z with 4503599627370496%Z. apply Z.mod_small. change (2 ^ fwidth DBL)%Z with 18446744073709551616%Z. lia. }
  rewrite E. destruct (pow_pat DBL (n + 2046) K) as [A B]; [change (emax DBL) with 2047%Z; lia|]. split; [exact A|]. rewrite B. change (bias DBL) with 1023%Z. do 3 f_equal. lia.
Qed.
Lemma max_room f k n : known f -> (0 <= k)%Z -> (14151 * 2 ^ k * one_val f <=? 10000 * max_fin f)%Z = true -> (n <= k)%Z -> (exp (IZR n * ln 2) * (14151 / 10000) <= Rmax_fin f)%R.
Proof.
  intros K Hk C Hn. apply Z.leb_le in C. apply IZR_le in C. rewrite !mult_IZR, exp_two in C by lia. pose proof (o_pos f K). unfold Rmax_fin. set (o := IZR (one_val f)) in *.
  assert (G : (exp (IZR n * ln 2) <= exp (IZR k * ln 2))%R).
  { assert (G : (IZR n * ln 2 <= IZR k * ln 2)%R) by (apply Rmult_le_compat_r; [pose proof ln2_bounds; unfold ln2_lo in *; lra|apply IZR_le; lia]).
    destruct (Rle_lt_or_eq_dec _ _ G) as [G'|G']; [left; now apply exp_increasing|right; now rewrite G']. }
  set (T := exp (IZR k * ln 2)) in *. apply Rmult_le_reg_r with o; [assumption|]. replace (IZR (max_fin f) / o * o)%R with (IZR (max_fin f)) by (field; lra). nra.
Qed.
(** the exponent of the exact reduction, bounded by x *)
Lemma n_le X n b : (Rabs (X * (144269504088896341 / 100000000000000000) - IZR n) <= 1 / 2 + 3 / 100000)%R ->
  (X * (144269504088896341 / 100000000000000000) + 1 / 2 + 3 / 100000 < IZR b + 1)%R -> (n <= b)%Z.
Proof. intros D H. apply Rabs_le3 in D. assert (IZR n < IZR (b + 1))%R by (rewrite plus_IZR; lra). apply lt_IZR in H0. lia. Qed.
Lemma n_ge X n b : (Rabs (X * (144269504088896341 / 100000000000000000) - IZR n) <= 1 / 2 + 3 / 100000)%R ->
  (IZR b - 1 < X * (144269504088896341 / 100000000000000000) - 1 / 2 - 3 / 100000)%R -> (b <= n)%Z.
Proof. intros D H. apply Rabs_le3 in D. assert (IZR (b - 1) < IZR n)%R by (rewrite minus_IZR; lra). apply lt_IZR in H0. lia. Qed.

(** ---------- float64 ---------- *)
Lemma positive_mag f y : known f -> fin f y -> (0 < real f y)%R -> fneg f y = false /\ is_zero f y = false.
Proof.
  intros K Fy P. pose proof (o_pos f K). assert (V : (0 < fval f y)%Z) by (apply lt_IZR; rewrite (fval_real f K); nra).
  pose proof (absval_pos f K y) as A. unfold fval in V. destruct (fneg f y) eqn:E; [lia|]. split; [reflexivity|]. unfold is_zero. apply Z.eqb_neq. intros C.
  rewrite <- (mv_mag f), C, (mv_0 f K) in V. lia.
Qed.
Lemma times_inf f y : known f -> fin f y -> (0 < real f y)%R -> f_mul f y (finf f) = finf f.
Proof.
  intros K Fy P. destruct (positive_mag f y K Fy P) as [S Z]. destruct (fin_mag f K y Fy) as (_ & N & I). unfold f_mul. rewrite N, I, Z, S. cbn [orb andb].
  assert (C : is_nan f (finf f) = false /\ is_inf f (finf f) = true /\ fneg f (finf f) = false) by (destruct K as [-> | ->]; vm_compute; repeat split).
  destruct C as (-> & -> & ->). reflexivity.
Qed.
Lemma times_negative f y p : known f -> fin f y -> fin f p -> (0 < real f y <= 2)%R -> fneg f p = true -> (Rabs (real f p) <= 1)%R ->
  fin f (f_mul f y p) /\ (real f (f_mul f y p) <= 0)%R.
Proof.
  intros K Fy Fp P S B. destruct (positive_mag f y K Fy (proj1 P)) as [Sy Zy]. destruct (fin_mag f K y Fy) as (_ & N & I). destruct (fin_mag f K p Fp) as (_ & N' & I').
  destruct (r_mul f K y p Fy Fp) as [A _].
  { rewrite Rabs_mult, (Rabs_pos_eq (real f y)) by lra. apply Rle_trans with (2 * 1)%R; [apply Rmult_le_compat; try lra; apply Rabs_pos|]. rewrite Rmult_1_r. apply IZR_le. vm_compute. discriminate. }
  split; [exact A|]. assert (V : (fval f (f_mul f y p) <= 0)%Z).
  { unfold f_mul. rewrite N, N', I, I', Sy, S. cbn [orb andb xorb]. rewrite andb_false_r. destruct (uv f K) as [U1 U2].
    pose proof (rnd_range f K (mag_value f (fmag f y) * mag_value f (fmag f p)) (unit_value f)) as R.
    assert (M : forall z, (0 <= mag_value f (fmag f z))%Z) by (intros z; rewrite (mv_mag f); apply (absval_pos f K)).
    specialize (R ltac:(pose proof (M y); pose proof (M p); nia) ltac:(lia)). set (g := rnd_mag f _ _) in *. destruct (put_ok f K true g R) as (P1 & P2 & P3).
    unfold fval. destruct (classes f K (put_sign f true g)) as (_ & _ & _ & NG & _). rewrite (proj2 NG); [|now apply P3]. pose proof (absval_pos f K (put_sign f true g)). lia. }
  pose proof (o_pos f K). apply IZR_le in V. rewrite (fval_real f K) in V. nra.
Qed.
Lemma neg_factor n : (2 <= n <= 128)%Z -> fin DBL (factor DBL n) /\ fneg DBL (factor DBL n) = true /\ (Rabs (real DBL (factor DBL n)) <= 1)%R.
Proof.
  intros Hn. assert (K : known DBL) by now right. assert (E : factor DBL n = ((n - 2) * 2 ^ fbits DBL + 2 ^ 63)%Z).
  { unfold factor. change (c_0x7f DBL) with 2046%Z. change (2 ^ mant_shift DBL)%Z with 4503599627370496%Z. change (2 ^ fbits DBL)%Z with 4503599627370496%Z. change (2 ^ fwidth DBL)%Z with 18446744073709551616%Z.
    change (2 ^ 63)%Z with 9223372036854775808%Z. rewrite Z.mod_small by lia. lia. }
  assert (R : (0 <= factor DBL n < 2 ^ fwidth DBL)%Z) by (apply Z.mod_pos_bound; reflexivity).
  assert (S : fneg DBL (factor DBL n) = true).
  { rewrite E. unfold fneg. change (2 ^ (fwidth DBL - 1))%Z with 9223372036854775808%Z. change (2 ^ fbits DBL)%Z with 4503599627370496%Z. change (2 ^ 63)%Z with 9223372036854775808%Z. lia. }
  assert (M : fmag DBL (factor DBL n) = ((n - 2) * 2 ^ fbits DBL)%Z).
  { rewrite E. unfold fmag. change (2 ^ (fwidth DBL - 1))%Z with 9223372036854775808%Z. change (2 ^ fbits DBL)%Z with 4503599627370496%Z. change (2 ^ 63)%Z with 9223372036854775808%Z.
    symmetry. apply (Z.mod_unique _ _ 1); lia. }
  assert (V : (Z.abs (fval DBL (factor DBL n)) <= one_val DBL)%Z).
  { rewrite (abs_fval DBL K), <- (mv_mag DBL), M. change (one_val DBL) with (mag_value DBL (1023 * 2 ^ fbits DBL)). apply (mv_le DBL K). change (2 ^ fbits DBL)%Z with 4503599627370496%Z. lia. }
  split; [|split; [exact S|]].
  - apply (fin_of_val DBL K); [exact R|]. eapply Z.le_trans; [exact V|]. vm_compute. discriminate.
  - pose proof (o_pos DBL K). apply IZR_le in V. rewrite abs_IZR, (fval_real DBL K), Rabs_mult, (Rabs_pos_eq (IZR (one_val DBL))) in V by lra. nra.
Qed.
Lemma exp64 x : fin DBL x -> f_max DBL (f_min DBL x (exp_hi DBL)) (exp_lo DBL) = x -> (Rabs (real DBL x) <= 8838 / 100)%R -> let r := exp256 DBL x in
  exists n, (Rabs (real DBL x * (144269504088896341 / 100000000000000000) - IZR n) <= 1 / 2 + 3 / 100000)%R /\
    ((n <= 0)%Z -> fin DBL r /\ (Rabs (real DBL r - IZR (2 ^ 1023) * exp (real DBL x)) <= 1 / 1000000 * (IZR (2 ^ 1023) * exp (real DBL x)))%R) /\
    (n = 1%Z -> r = finf DBL) /\ ((2 <= n)%Z -> fin DBL r /\ (real DBL r <= 0)%R).
Proof.
  intros Fx CL B r. assert (K : known DBL) by now right.
  destruct (exp_core DBL K x Fx CL B) as (n & fx & y & E & Ff & Ef & Ln & Hn & Br & D & Fy & Ey).
  exists n. split; [exact D|]. unfold r. rewrite E, (factor_is DBL fx n K (to_int_ok DBL K fx n Ff Ef Hn)). clear E.
  assert (YB : (0 < real DBL y <= 2)%R) by (destruct (exp_r_bounds _ Br); apply Rabs_le3 in Ey; lra).
  split; [|split].
  - intros N. destruct (factor_DBL n ltac:(lia)) as [Fp Ep].
    replace (IZR (2 ^ 1023) * exp (real DBL x))%R with (exp (IZR (n + 1023) * ln 2) * exp (real DBL x - IZR n * ln 2))%R.
    + apply scaled; try assumption; [|lia]. apply (max_room DBL 1023); try assumption; [lia|vm_compute; reflexivity|lia].
    + rewrite exp_two by lia. rewrite <- !exp_plus. f_equal. rewrite plus_IZR. ring.
  - intros ->. change (factor DBL 1) with (finf DBL). apply times_inf; try assumption. lra.
  - intros N. destruct (neg_factor n ltac:(lia)) as (Fp & S & Bp). now apply times_negative.
Qed.

(** ---------- the clamps ---------- *)
Lemma clamp_cases f x : known f -> fin f x -> exists c, fin f c /\ f_max f (f_min f c (exp_hi f)) (exp_lo f) = c /\ exp256 f x = exp256 f c /\ (Rabs (real f c) <= 8838 / 100)%R /\ (fval f (exp_lo f) <= fval f c <= fval f (exp_hi f))%Z /\
  (c = x \/ (c = exp_hi f /\ real f c <= real f x)%R \/ (c = exp_lo f /\ real f x <= real f c)%R).
Proof.
  intros K Fx. destruct (hi_facts f K) as (H1 & H2 & H3 & H4 & H5). destruct (fin_mag f K x Fx) as (_ & N & _).
  assert (N' : ~ fnan f x) by (intros C; apply (class_nan f K) in C; congruence).
  assert (FH : fin f (exp_hi f) /\ fin f (exp_lo f)) by (destruct K as [-> | ->]; repeat split; try (vm_compute; congruence); intros C; vm_compute in C; discriminate). destruct FH as [FH FL].
  assert (V : (100 * fval f (exp_hi f) <= 8838 * one_val f /\ - 8838 * one_val f <= 100 * fval f (exp_lo f))%Z) by (destruct K as [-> | ->]; vm_compute; split; discriminate).
  assert (ID : forall c, ~ fnan f c -> (fval f (exp_lo f) < fval f c < fval f (exp_hi f))%Z \/ c = exp_hi f \/ c = exp_lo f -> f_max f (f_min f c (exp_hi f)) (exp_lo f) = c).
  { intros c Nc [[A B]|[-> | ->]]; unfold f_min, f_max.
    - rewrite (bool_true _ _ (lt_iff f c (exp_hi f) K)) by (split; [assumption|split; [assumption|lia]]).
      rewrite (bool_true _ _ (gt_iff f c (exp_lo f) K)) by (split; [assumption|split; [assumption|lia]]). reflexivity.
    - rewrite (bool_false _ _ (lt_iff f (exp_hi f) (exp_hi f) K)) by (intros (? & ? & ?); lia).
      rewrite (bool_true _ _ (gt_iff f (exp_hi f) (exp_lo f) K)) by (split; [assumption|split; [assumption|lia]]). reflexivity.
    - rewrite (bool_true _ _ (lt_iff f (exp_lo f) (exp_hi f) K)) by (split; [assumption|split; [assumption|lia]]).
      rewrite (bool_false _ _ (gt_iff f (exp_lo f) (exp_lo f) K)) by (intros (? & ? & ?); lia). reflexivity. }
  assert (RB : forall c, (fval f (exp_lo f) <= fval f c <= fval f (exp_hi f))%Z -> (Rabs (real f c) <= 8838 / 100)%R).
  { intros c [A B]. pose proof (o_pos f K). destruct V as [V1 V2]. apply IZR_le in V1, V2, A, B. rewrite !mult_IZR in V1, V2. rewrite ?(fval_real f K) in *. apply le_Rabs. nra. }
  destruct (Z.lt_ge_cases (fval f x) (fval f (exp_hi f))) as [L|G].
  - destruct (Z.lt_ge_cases (fval f (exp_lo f)) (fval f x)) as [L2|G2].
    + exists x. split; [exact Fx|]. split; [apply ID; auto|]. split; [reflexivity|]. split; [apply RB; lia|split; [lia|now left]].
    + exists (exp_lo f). split; [exact FL|]. split; [apply ID; auto|]. split.
      * apply exp_clamp. rewrite (ID (exp_lo f)) by auto. unfold f_min, f_max. rewrite (bool_true _ _ (lt_iff f x (exp_hi f) K)) by (split; [assumption|split; [assumption|lia]]).
        rewrite (bool_false _ _ (gt_iff f x (exp_lo f) K)) by (intros (? & ? & ?); lia). reflexivity.
      * split; [apply RB; lia|]. split; [lia|]. right; right. split; [reflexivity|]. now apply (real_le f K).
  - exists (exp_hi f). split; [exact FH|]. split; [apply ID; auto|]. split.
    + apply exp_clamp. rewrite (ID (exp_hi f)) by auto. unfold f_min at 1. rewrite (bool_false _ _ (lt_iff f x (exp_hi f) K)) by (intros (? & ? & ?); lia).
      unfold f_max. rewrite (bool_true _ _ (gt_iff f (exp_hi f) (exp_lo f) K)) by (split; [assumption|split; [assumption|lia]]). reflexivity.
    + split; [apply RB; lia|]. split; [lia|]. right; left. split; [reflexivity|]. now apply (real_le f K).
Qed.
Lemma exp_le x y : (x <= y -> exp x <= exp y)%R.
Proof. intros H. destruct (Rle_lt_or_eq_dec _ _ H) as [L| ->]; [left; now apply exp_increasing|right; reflexivity]. Qed.

(** float64: wrong for every finite number *)
Lemma exp64_wrong x : fin DBL x -> let r := exp256 DBL x in r = finf DBL \/ (fin DBL r /\ (exp (real DBL x) / 2 <= Rabs (real DBL r - exp (real DBL x)))%R).
Proof.
  intros Fx r. assert (K : known DBL) by now right. destruct (clamp_cases DBL x K Fx) as (c & Fc & CL & E & B & _ & C). unfold r. rewrite E.
  destruct (exp64 c Fc CL B) as (n & D & A1 & A2 & A3). pose proof (exp_pos (real DBL x)) as PX.
  assert (T : (4 <= IZR (2 ^ 1023))%R) by (apply IZR_le; vm_compute; discriminate).
  assert (LO : (n <= 0)%Z -> (exp (real DBL x) <= exp (real DBL c))%R -> fin DBL (exp256 DBL c) /\ (exp (real DBL x) / 2 <= Rabs (real DBL (exp256 DBL c) - exp (real DBL x)))%R).
  { intros N H. destruct (A1 N) as [F G]. split; [exact F|]. pose proof (exp_pos (real DBL c)) as PC. apply Rabs_le3 in G. set (z := real DBL (exp256 DBL c)) in *.
    set (ec := exp (real DBL c)) in *. set (ex := exp (real DBL x)) in *. set (t := IZR (2 ^ 1023)) in *.
    assert (4 * ec <= t * ec)%R by nra. assert (2 * ex <= z)%R by lra. rewrite Rabs_pos_eq by lra. lra. }
  assert (HI : (2 <= n)%Z -> fin DBL (exp256 DBL c) /\ (exp (real DBL x) / 2 <= Rabs (real DBL (exp256 DBL c) - exp (real DBL x)))%R).
  { intros N. destruct (A3 N) as [F G]. split; [exact F|]. rewrite Rabs_left1 by lra. lra. }
  destruct (Z.le_gt_cases n 0) as [N|N]; [right|destruct (Z.eq_dec n 1) as [->|]; [left; now apply A2|right; apply HI; lia]].
  apply LO; [exact N|]. destruct C as [-> |[[-> H]|[-> H]]]; [lra| |now apply exp_le].
  exfalso. apply Rabs_le3 in D. assert (V : (8837 * one_val DBL <= 100 * fval DBL (exp_hi DBL))%Z) by (vm_compute; discriminate). apply IZR_le in V. rewrite !mult_IZR, (fval_real DBL K) in V.
  pose proof (o_pos DBL K). assert (IZR n <= 0)%R by now apply IZR_le. nra.
Qed.
(** ---------- rounding is monotone ---------- *)
Section Monotone.
  Local Open Scope Z_scope.
  Variable f : fmt.
  Hypothesis K : known f.
  Lemma rnd_mono N N' D : 0 <= N <= N' -> 0 < D -> rnd_mag f N D <= rnd_mag f N' D.
  Proof.
    intros HN HD. destruct (Z.eq_dec N N') as [->|NE]; [lia|]. destruct (rnd_ok f K N D ltac:(lia) HD) as [R1 E1]. destruct (rnd_ok f K N' D ltac:(lia) HD) as [R2 E2].
    set (g := rnd_mag f N D) in *. set (h := rnd_mag f N' D) in *. destruct (Z.le_gt_cases g h) as [|G]; [assumption|exfalso]. destruct (inf_bound f K) as [[J1 J2] _].
    specialize (E1 h ltac:(lia) ltac:(lia)). specialize (E2 g ltac:(lia) ltac:(lia)). rewrite <- !(mv_small f) in E1, E2 by lia.
    pose proof (mv_mono f K h g ltac:(lia)) as M. assert (mag_value f h * D < mag_value f g * D) by nia. lia.
  Qed.
  Definition rounded_val (s D : Z) : Z := if s <? 0 then - mag_value f (rnd_mag f (Z.abs s) D) else mag_value f (rnd_mag f (Z.abs s) D).
  Lemma rounded_mono s t D : s <= t -> 0 < D -> rounded_val s D <= rounded_val t D.
  Proof.
    intros H HD. assert (P : forall N, 0 <= N -> 0 <= rnd_mag f N D) by (intros N HN; now apply (rnd_ok f K N D)).
    unfold rounded_val. destruct (Z.ltb_spec s 0), (Z.ltb_spec t 0).
    - pose proof (rnd_mono (Z.abs t) (Z.abs s) D ltac:(lia) HD). pose proof (P (Z.abs t) ltac:(lia)). pose proof (mv_le f K (rnd_mag f (Z.abs t) D) (rnd_mag f (Z.abs s) D) ltac:(lia)). lia.
    - pose proof (P (Z.abs t) ltac:(lia)). pose proof (P (Z.abs s) ltac:(lia)). pose proof (mv_nonneg f K (rnd_mag f (Z.abs t) D) ltac:(lia)). pose proof (mv_nonneg f K (rnd_mag f (Z.abs s) D) ltac:(lia)). lia.
    - lia.
    - pose proof (rnd_mono (Z.abs s) (Z.abs t) D ltac:(lia) HD). pose proof (P (Z.abs s) ltac:(lia)). apply (mv_le f K). lia.
  Qed.
  Lemma rnd_0 D : 0 < D -> rnd_mag f 0 D = 0.
  Proof. intros HD. destruct (inf_bound f K) as [[J1 J2] _]. apply (rnd_exact f K); [lia|lia|lia|]. rewrite (mv_0 f K). reflexivity. Qed.
  Lemma add_val x y : fin f x -> fin f y -> Z.abs (fval f x + fval f y) <= max_fin f -> fval f (f_add f x y) = rounded_val (fval f x + fval f y) 1.
  Proof.
    intros Fx Fy B. destruct (fin_mag f K x Fx) as (_ & N1 & I1). destruct (fin_mag f K y Fy) as (_ & N2 & I2). unfold f_add. rewrite N1, N2, I1, I2. cbn [orb].
    change (signed_value f) with (fval f). set (s := fval f x + fval f y) in *. destruct (inf_bound f K) as [[J1 J2] _]. unfold rounded_val. destruct (Z.eqb_spec s 0) as [E|E].
    - destruct (put_val f K (fneg f x && fneg f y) 0 ltac:(lia)) as [_ ->]. rewrite E. cbn [Z.abs Z.ltb Z.compare]. rewrite rnd_0, (mv_0 f K) by lia. now destruct (_ && _).
    - destruct (rnd_err f K (Z.abs s) 1 ltac:(lia) ltac:(lia) ltac:(lia)) as [R _]. destruct (put_val f K (s <? 0) _ R) as [_ ->]. reflexivity.
  Qed.
  Lemma mul_val x c : fin f x -> fin f c -> fneg f c = false -> Z.abs (fval f x * fval f c) <= max_fin f * one_val f -> fval f (f_mul f x c) = rounded_val (fval f x * fval f c) (one_val f).
  Proof.
    intros Fx Fy NC B. destruct (fin_mag f K x Fx) as (_ & N1 & I1). destruct (fin_mag f K c Fy) as (_ & N2 & I2). unfold f_mul. rewrite N1, N2, I1, I2. cbn [orb andb]. rewrite andb_false_r.
    destruct (uv f K) as [U1 U2]. rewrite U1. change (mag_value f (fmag f x)) with (fabsval f x). change (mag_value f (fmag f c)) with (fabsval f c).
    assert (V : fabsval f x * fabsval f c = Z.abs (fval f x * fval f c)) by (rewrite Z.abs_mul, !(abs_fval f K); reflexivity). rewrite V.
    destruct (rnd_err f K (Z.abs (fval f x * fval f c)) (one_val f) ltac:(lia) U2 B) as [R _]. destruct (put_val f K (xorb (fneg f x) (fneg f c)) _ R) as [_ ->].
    rewrite NC, xorb_false_r. pose proof (absval_pos f K x) as PX. pose proof (absval_pos f K c) as PC. unfold rounded_val. destruct (Z.ltb_spec (fval f x * fval f c) 0) as [L|L].
    - assert (E : fneg f x = true) by (destruct (fneg f x) eqn:E; [reflexivity|exfalso; unfold fval in L; rewrite E, NC in L; nia]). now rewrite E.
    - destruct (fneg f x) eqn:E; [|reflexivity]. assert (Z0 : fval f x * fval f c = 0) by (unfold fval in *; rewrite E, NC in *; nia).
      rewrite Z0. cbn [Z.abs]. rewrite rnd_0, (mv_0 f K) by lia. reflexivity.
  Qed.
End Monotone.
