(** Trig_Log.v - how close np.log comes to ln x (C60): the reduction of the argument and the polynomial. *)
From Coq Require Import Reals Lra.
From Verif Require Import Base Kernel_Model Kernel_Proofs Kernel_Props Float_Model Compare_Model Compare_Proofs Compare_Props Unary_Model Unary_Proofs Unary_Props UnaryVal_Props Round_Model Round_Props Arith_Model Arith_Props Trig_Model Trig_Props Exp_Bounds Log_Bounds Trig_Real Trig_Near Trig_Exp.

Section Log.
  Variable f : fmt.
  Hypothesis K : known f.
  Let P := (2 ^ fbits f)%Z.

  (** the fields of a positive normal number *)
  Lemma normal_fields x : fin f x -> (fval f (c_min_norm_pos f) <= fval f x)%Z ->
    exists E fr, x = (E * P + fr)%Z /\ (1 <= E < emax f)%Z /\ (0 <= fr < P)%Z /\ fval f x = ((P + fr) * 2 ^ (E - 1))%Z.
  Proof.
    intros Fx H. destruct (fin_mag f K x Fx) as (M & _). pose proof (consts f K) as (c1 & c2 & c3 & c4 & c5 & c6 & c7). fold P in c2, c4, c5, c7.
    assert (MN : (fval f (c_min_norm_pos f) = mag_value f P /\ 0 < mag_value f P)%Z) by (unfold P; destruct K as [-> | ->]; vm_compute; split; reflexivity).
    destruct MN as [MN MP]. rewrite MN in H. assert (S : fneg f x = false).
    { destruct (fneg f x) eqn:E; [exfalso|reflexivity]. unfold fval in H. rewrite E in H. pose proof (absval_pos f K x). lia. }
    assert (XM : fmag f x = x).
    { destruct Fx as [R _]. unfold fmag, fneg in *. apply Z.leb_gt in S. apply Z.mod_small. lia. }
    assert (V : fval f x = mag_value f x) by (unfold fval; rewrite S, <- (mv_mag f), XM; reflexivity).
    rewrite V in H. rewrite XM in M.
    assert (L : (P <= x)%Z).
    { destruct (Z.le_gt_cases P x) as [|G]; [assumption|exfalso]. pose proof (mv_mono f K x P ltac:(lia)). lia. }
    exists (x / P)%Z, (x mod P)%Z. pose proof (Z.div_mod x P ltac:(lia)) as DM. pose proof (Z.mod_pos_bound x P ltac:(lia)) as MB.
    assert (E1 : (1 <= x / P)%Z) by (apply Z.div_le_lower_bound; lia).
    assert (E2 : (x / P < emax f)%Z).
    { apply Z.div_lt_upper_bound; [lia|]. assert (finf f = P * emax f)%Z by (unfold P; destruct K as [-> | ->]; vm_compute; reflexivity). lia. }
    split; [lia|]. split; [lia|]. split; [lia|]. rewrite V. unfold mag_value. fold P. destruct (Z.eqb_spec (x / P) 0); [lia|]. reflexivity.
  Qed.
  Lemma fval_fields E fr : (1 <= E < emax f)%Z -> (0 <= fr < P)%Z -> fin f (E * P + fr) /\ fval f (E * P + fr) = ((P + fr) * 2 ^ (E - 1))%Z.
  Proof.
    intros HE Hf. pose proof (consts f K) as (c1 & c2 & c3 & c4 & c5 & c6 & c7). fold P in c2, c4, c5, c7.
    destruct (fields_of f K E fr ltac:(lia) Hf (E * P + fr)%Z eq_refl) as (F1 & F2 & F3 & F4).
    assert (R : (0 <= E * P + fr < 2 ^ fwidth f)%Z).
    { replace (fwidth f) with (1 + (fwidth f - 1))%Z by lia. rewrite Z.pow_add_r by (destruct K as [-> | ->]; cbn; lia). rewrite c7. change (2 ^ 1)%Z with 2%Z. nia. }
    split; [split; [exact R|unfold finite_p; lia]|]. unfold fval, fabsval. rewrite F2, F3, F4. destruct (Z.eqb_spec E 0); [lia|]. reflexivity.
  Qed.
  (** the mantissa with the exponent of 0.5 *)
  Lemma mantissa E fr : (1 <= E < emax f)%Z -> (0 <= fr < P)%Z -> Z.lor (Z.land (E * P + fr) (c_inv_mant_mask f)) (c_0p5 f) = ((bias f - 1) * P + fr)%Z.
  Proof.
    intros HE Hf. pose proof (consts f K) as (c1 & c2 & c3 & c4 & c5 & c6 & c7). fold P in c2, c4, c5, c7. set (p := fbits f) in *.
    assert (W : c_inv_mant_mask f = (2 ^ (fwidth f - 1) + (2 ^ p - 1))%Z /\ c_0p5 f = ((bias f - 1) * 2 ^ p)%Z) by (unfold p; destruct K as [-> | ->]; vm_compute; split; reflexivity). destruct W as [-> ->].
    assert (PW : (p < fwidth f - 1)%Z) by (unfold p; destruct K as [-> | ->]; reflexivity).
    assert (L : Z.land (E * P + fr) (2 ^ (fwidth f - 1) + (2 ^ p - 1)) = fr).
    { apply Z.bits_inj'. intros k Hk. rewrite Z.land_spec.
      assert (T : Z.testbit (2 ^ (fwidth f - 1) + (2 ^ p - 1)) k = ((k =? fwidth f - 1) || (k <? p))%Z).
      { replace (2 ^ p - 1)%Z with (Z.ones p) by (rewrite Z.ones_equiv; lia).
        rewrite Z.add_nocarry_lxor.
        - rewrite Z.lxor_spec, Z.pow2_bits_eqb by lia. rewrite (Z.eqb_sym (fwidth f - 1)). rewrite Z.testbit_ones_nonneg by lia.
          destruct (Z.eqb_spec k (fwidth f - 1)), (Z.ltb_spec k p); try reflexivity. lia.
        - apply Z.bits_inj'. intros j Hj. rewrite Z.land_spec, Z.bits_0, Z.pow2_bits_eqb, Z.testbit_ones_nonneg by lia. destruct (Z.eqb_spec (fwidth f - 1) j), (Z.ltb_spec j p); try reflexivity. lia. }
      rewrite T. destruct (Z.ltb_spec k p) as [L|G].
      - rewrite orb_true_r, andb_true_r. rewrite <- (Z.mod_pow2_bits_low (E * P + fr) p k) by lia. fold P. rewrite Z.add_comm, Z.mod_add, Z.mod_small by lia. reflexivity.
      - rewrite orb_false_r. assert (FR : Z.testbit fr k = false) by (apply (bits_high p fr k); [lia|exact Hf|lia]).
        rewrite FR. destruct (Z.eqb_spec k (fwidth f - 1)) as [->|]; [|apply andb_false_r]. rewrite andb_true_r.
        apply (bits_high (fwidth f - 1)); [lia|rewrite c7; nia|lia]. }
    rewrite L. assert (N : Z.land fr ((bias f - 1) * 2 ^ p) = 0%Z).
    { apply Z.bits_inj'. intros k Hk. rewrite Z.land_spec, Z.bits_0. destruct (Z.lt_ge_cases k p) as [G|G].
      - rewrite (Z.mul_pow2_bits_low _ p k) by lia. apply andb_false_r.
      - rewrite (bits_high p fr k); [reflexivity|lia|exact Hf|lia]. }
    rewrite <- (Z.lxor_lor _ _ N), <- (Z.add_nocarry_lxor _ _ N). unfold P, p. lia.
  Qed.
  (** small integers *)
  Lemma int_rep n : (Z.abs n <= 2 ^ 23)%Z -> exists g, (0 <= g < finf f)%Z /\ mag_value f g = (Z.abs n * one_val f)%Z.
  Proof.
    intros H. destruct (uv f K) as [U1 U2]. set (j := if isF f then 149%Z else 1074%Z).
    assert (J : (0 <= j)%Z /\ one_val f = (2 ^ j)%Z) by (unfold j; destruct K as [-> | ->]; vm_compute; split; congruence). destruct J as [J1 J2]. rewrite J2.
    apply (repr f K j J1 (Z.abs n)).
    - fold P. assert (2 ^ 23 < 2 * P)%Z by (unfold P; destruct K as [-> | ->]; vm_compute; reflexivity). lia.
    - rewrite <- J2. apply Z.le_trans with (2 ^ 23 * one_val f)%Z; [apply Z.mul_le_mono_nonneg_r; lia|]. destruct K as [-> | ->]; vm_compute; discriminate.
  Qed.
  Definition is_int (x n : Z) : Prop := fin f x /\ fval f x = (n * one_val f)%Z.
  Lemma int_real x n : is_int x n -> real f x = IZR n.
  Proof. intros [_ V]. pose proof (o_pos f K). unfold real. rewrite V, mult_IZR. field. lra. Qed.
  Lemma int_add x y n k : is_int x n -> is_int y k -> (Z.abs (n + k) <= 2 ^ 23)%Z -> is_int (f_add f x y) (n + k).
  Proof.
    intros [Fx Vx] [Fy Vy] H. destruct (int_rep (n + k) H) as (g & G1 & G2). destruct (uv f K) as [U1 U2].
    destruct (add_exact f K x y g Fx Fy G1) as [A V]; [rewrite G2, Vx, Vy, <- Z.mul_add_distr_r, Z.abs_mul, (Z.abs_eq (one_val f)) by lia; reflexivity|].
    split; [exact A|]. rewrite V, Vx, Vy. ring.
  Qed.
  Lemma int_sub x y n k : is_int x n -> is_int y k -> (Z.abs (n - k) <= 2 ^ 23)%Z -> is_int (f_sub f x y) (n - k).
  Proof.
    intros Hx [Fy Vy] H. unfold f_sub. replace (n - k)%Z with (n + - k)%Z by ring. apply int_add; [exact Hx| |exact H].
    destruct (flip_fin f K y Fy) as [A V]. split; [exact A|]. rewrite V, Vy. ring.
  Qed.
  Lemma int_one : is_int (c_one f) 1.
  Proof. split; [apply (fin_of_val f K)|]; destruct K as [-> | ->]; vm_compute; try split; congruence. Qed.
  Lemma int_zero : is_int 0 0.
  Proof. split; [apply (fin_of_val f K)|]; destruct K as [-> | ->]; vm_compute; try split; congruence. Qed.
  Lemma of_int_ok n : (Z.abs n <= 2 ^ 22)%Z -> is_int (of_int f (n mod 2 ^ fwidth f)) n.
  Proof.
    intros H. pose proof int_rep as IR. unfold is_int. unfold of_int. destruct (isF_iff f K) as [[EF ->]|[EF ->]].
    - assert (S : sval 32 (n mod 2 ^ fwidth f) = n).
      { rewrite EF. change (fwidth FLT) with 32%Z. unfold sval. change (2 ^ 32)%Z with 4294967296%Z. change (2 ^ (32 - 1))%Z with 2147483648%Z. change (2 ^ 22)%Z with 4194304%Z in H.
        destruct (Z.lt_ge_cases n 0) as [L|L].
        - rewrite <- (Z.mod_unique n 4294967296 (-1) (n + 4294967296)) by lia. destruct (Z.ltb_spec (n + 4294967296) 2147483648); lia.
        - rewrite (Z.mod_small n) by lia. destruct (Z.ltb_spec n 2147483648); lia. }
      unfold cvtepi32_ps. rewrite S. destruct (int_rep n ltac:(lia)) as (g & G1 & G2). destruct (uv f K) as [U1 U2]. rewrite <- EF. unfold lit. rewrite U1.
      rewrite (rnd_exact f K (Z.abs n * one_val f) 1 g ltac:(nia) ltac:(lia) G1 ltac:(lia)). destruct (put_val f K (n <? 0)%Z g G1) as [A V]. split; [exact A|]. rewrite V, G2. destruct (Z.ltb_spec n 0); nia.
    - unfold int64_to_double. assert (MG : magic = 4843621399236968448%Z) by (vm_compute; reflexivity). rewrite MG.
      assert (O : one_val DBL = (2 ^ 1074)%Z) by (vm_compute; reflexivity). rewrite EF in *. change (2 ^ 22)%Z with 4194304%Z in H.
      assert (FM : fin DBL 4843621399236968448 /\ fval DBL 4843621399236968448 = (6755399441055744 * one_val DBL)%Z).
      { split; [split; [vm_compute; split; congruence|intros C; vm_compute in C; discriminate]|vm_compute; reflexivity]. }
      destruct FM as [FM VM].
      assert (I : i_addl DBL (n mod 2 ^ fwidth DBL) 4843621399236968448 = (4843621399236968448 + n)%Z).
      { unfold i_addl. rewrite Z.add_mod_idemp_l by (vm_compute; discriminate). rewrite Z.mod_small; [lia|]. change (2 ^ fwidth DBL)%Z with 18446744073709551616%Z. lia. }
      rewrite I. assert (VG : mag_value DBL (4843621399236968448 + n) = ((6755399441055744 + n) * one_val DBL)%Z).
      { unfold mag_value. change (2 ^ fbits DBL)%Z with 4503599627370496%Z.
        replace ((4843621399236968448 + n) / 4503599627370496)%Z with 1075%Z by (apply (Z.div_unique _ _ _ (2251799813685248 + n)); lia).
        replace ((4843621399236968448 + n) mod 4503599627370496)%Z with (2251799813685248 + n)%Z by (apply (Z.mod_unique _ _ 1075); lia).
        change (1075 =? 0)%Z with false. cbv iota. rewrite O. change (1075 - 1)%Z with 1074%Z. f_equal. lia. }
      assert (W : fval DBL (4843621399236968448 + n) = ((6755399441055744 + n) * one_val DBL)%Z).
      { rewrite <- VG. unfold fval, fneg. change (2 ^ (fwidth DBL - 1))%Z with 9223372036854775808%Z. destruct (Z.leb_spec 9223372036854775808 (4843621399236968448 + n)); [lia|].
        symmetry. apply (mv_small DBL). change (2 ^ (fwidth DBL - 1))%Z with 9223372036854775808%Z. lia. }
      assert (FA : fin DBL (4843621399236968448 + n)).
      { assert (D : ((4843621399236968448 + n) / 2 ^ fbits DBL = 1075)%Z) by (change (2 ^ fbits DBL)%Z with 4503599627370496%Z; symmetry; apply (Z.div_unique _ _ _ (2251799813685248 + n)); lia).
        split; [change (2 ^ fwidth DBL)%Z with 18446744073709551616%Z; lia|]. unfold finite_p, fexp. replace (fmag DBL (4843621399236968448 + n)) with (4843621399236968448 + n)%Z.
        - rewrite D. vm_compute. congruence.
        - symmetry. apply Z.mod_small. change (2 ^ (fwidth DBL - 1))%Z with 9223372036854775808%Z. lia. }
      destruct (flip_fin DBL K _ FM) as [FF VF]. destruct (uv DBL K) as [U1 U2]. destruct (IR n ltac:(lia)) as (g & G1 & G2).
      unfold f_sub. destruct (add_exact DBL K _ _ g FA FF G1) as [A V].
      { rewrite G2, W, VF, VM. replace ((6755399441055744 + n) * one_val DBL + - (6755399441055744 * one_val DBL))%Z with (n * one_val DBL)%Z by ring. rewrite Z.abs_mul, (Z.abs_eq (one_val DBL)) by lia. reflexivity. }
      split; [exact A|]. rewrite V, W, VF, VM. ring.
  Qed.
  (** log256 after the reduction *)
  Definition log_tail (x e : Z) : Z :=
    let z := f_mul f x x in
    let y := f_mul f (horner f x (log_p0 f) (log_ps f)) x in
    let y := f_mul f y z in
    let y := f_add f y (f_mul f e (log_q1 f)) in
    let y := f_sub f y (f_mul f z (c_0p5 f)) in
    f_add f (f_add f x y) (f_mul f e (log_q2 f)).
  Lemma dyadic x y k : fin f x -> fin f y -> (Z.abs k < 2 * P)%Z -> (fval f x + fval f y = k * 2 ^ (bias f - 2))%Z -> fin f (f_add f x y) /\ fval f (f_add f x y) = (k * 2 ^ (bias f - 2))%Z.
  Proof.
    intros Fx Fy Hk E. pose proof (consts f K) as (c1 & c2 & c3 & c4 & c5 & c6 & c7). fold P in c2, c4, c5, c7.
    assert (B2 : (0 <= bias f - 2)%Z) by (destruct K as [-> | ->]; vm_compute; discriminate).
    destruct (repr f K (bias f - 2) B2 (Z.abs k)) as (g & G1 & G2).
    - fold P. lia.
    - apply Z.le_trans with (2 * P * 2 ^ (bias f - 2))%Z; [apply Z.mul_le_mono_nonneg_r; lia|]. unfold P. destruct K as [-> | ->]; vm_compute; discriminate.
    - destruct (add_exact f K x y g Fx Fy G1) as [A V]; [rewrite G2, E, Z.abs_mul, (Z.abs_eq (2 ^ _)) by lia; reflexivity|]. split; [exact A|]. now rewrite V, E.
  Qed.
  Lemma log_reduce x : fin f x -> (fval f (c_min_norm_pos f) <= fval f x)%Z ->
    exists k xx e, log256 f x = log_tail xx e /\ is_int e (k + (bias f - c_0x7f f)) /\ (Z.abs (k + (bias f - c_0x7f f)) <= c_0x7f f + 1)%Z /\ fin f xx /\
      ln (real f x) = (IZR k * ln 2 + ln (1 + real f xx))%R /\ (-293 / 1000 <= real f xx <= 41422 / 100000)%R /\
      (exists h, real f xx * IZR (2 * P) = IZR h)%R.
  Proof.
    intros Fx Hx. destruct (normal_fields x Fx Hx) as (E & fr & XE & HE & Hf & VX). destruct (fval_fields E fr HE Hf) as [_ _].
    pose proof (consts f K) as (c1 & c2 & c3 & c4 & c5 & c6 & c7). fold P in c2, c4, c5, c7. destruct (uv f K) as [U1 U2]. pose proof (o_pos f K) as OP.
    assert (B2 : (0 <= bias f - 2)%Z) by (destruct K as [-> | ->]; vm_compute; discriminate).
    assert (PE : (0 < 2 ^ (E - 1))%Z) by (apply Z.pow_pos_nonneg; lia). assert (PB : (0 < 2 ^ (bias f - 2))%Z) by (apply Z.pow_pos_nonneg; lia).
    assert (O2 : one_val f = (2 * P * 2 ^ (bias f - 2))%Z) by (rewrite c4; replace (bias f - 1)%Z with (Z.succ (bias f - 2)) by lia; rewrite Z.pow_succ_r by lia; ring).
    destruct (fin_mag f K x Fx) as (_ & NX & _). assert (NX' : ~ fnan f x) by (intros C; apply (class_nan f K) in C; congruence).
    assert (NM : ~ fnan f (c_min_norm_pos f)) by (intros C; apply (class_nan f K) in C; destruct K as [-> | ->]; vm_compute in C; discriminate).
    destruct (fval0 f K) as [Z0 NZ].
    unfold log256. cbv zeta.
    rewrite (bool_false _ _ (le_iff f x 0 K)) by (intros (_ & _ & C); rewrite Z0, VX in C; nia). cbn [mask]. rewrite Z.lor_0_r.
    assert (MX : f_max f x (c_min_norm_pos f) = x).
    { unfold f_max. destruct (f_gt f x (c_min_norm_pos f)) eqn:G; [reflexivity|].
      assert (V : fval f x = fval f (c_min_norm_pos f)).
      { destruct (Z.eq_dec (fval f x) (fval f (c_min_norm_pos f))) as [|Ne]; [assumption|exfalso]. rewrite (bool_true _ _ (gt_iff f x (c_min_norm_pos f) K)) in G by (split; [assumption|split; [assumption|lia]]). discriminate. }
      symmetry. apply (pat_unique f K); [apply Fx|destruct K as [-> | ->]; vm_compute; split; congruence|exact V|rewrite VX; nia]. }
    rewrite MX. assert (MT : Z.lor (Z.land x (c_inv_mant_mask f)) (c_0p5 f) = ((bias f - 1) * P + fr)%Z) by (rewrite XE; exact (mantissa E fr HE Hf)). rewrite MT. clear MT.
    assert (SR : i_srli f x (mant_shift f) = E).
    { unfold i_srli. replace (2 ^ mant_shift f)%Z with P by (unfold P; destruct K as [-> | ->]; reflexivity). rewrite XE, Z.div_add_l, Z.div_small by lia. lia. }
    rewrite SR. destruct (fval_fields (bias f - 1) fr ltac:(lia) Hf) as [F1 V1]. replace (bias f - 1 - 1)%Z with (bias f - 2)%Z in V1 by lia. set (x1 := ((bias f - 1) * P + fr)%Z) in *.
    assert (EM : (emax f <= c_0x7f f * 2 + 1 /\ emax f <= 2047 /\ 0 < c_0x7f f <= 2046 /\ (c_0x7f f = bias f \/ emax f = c_0x7f f + 1))%Z) by (destruct K as [-> | ->]; vm_compute; repeat split; try congruence; auto).
    set (n0 := (E - c_0x7f f)%Z). unfold i_subl. fold n0.
    pose proof (of_int_ok n0 ltac:(unfold n0; lia)) as I0. set (e0 := of_int f (n0 mod 2 ^ fwidth f)) in *.
    pose proof (int_add _ _ _ _ I0 int_one ltac:(unfold n0; lia)) as I1. set (e1 := f_add f e0 (c_one f)) in *.
    destruct int_one as [F1o V1o]. destruct (flip_fin f K _ F1o) as [FF VF].
    destruct (dyadic x1 (f_flip f (c_one f)) (fr - P) F1 FF ltac:(lia)) as [F2 V2]; [rewrite V1, VF, V1o, O2; ring|]. change (f_add f x1 (f_flip f (c_one f))) with (f_sub f x1 (c_one f)) in F2, V2. set (x2 := f_sub f x1 (c_one f)) in *.
    (* ln of x *)
    assert (RX : real f x = ((1 + IZR fr / IZR P) * exp (IZR (E - bias f) * ln 2))%R).
    { unfold real. rewrite VX, c4, !mult_IZR, plus_IZR, !exp_two by lia. replace (IZR (E - bias f)) with (IZR (E - 1) - IZR (bias f - 1))%R by (rewrite !minus_IZR; ring).
      rewrite Rmult_minus_distr_r. unfold Rminus. rewrite exp_plus, exp_Ropp. field. split; [apply Rgt_not_eq, exp_pos|]. apply Rgt_not_eq, IZR_lt. lia. }
    assert (PR : (0 < IZR P)%R) by (apply IZR_lt; lia). assert (FRR : (0 <= IZR fr / IZR P)%R) by (apply Rmult_le_pos; [apply IZR_le; lia|left; now apply Rinv_0_lt_compat]).
    assert (LX : ln (real f x) = (IZR (E - bias f) * ln 2 + ln (1 + IZR fr / IZR P))%R) by (rewrite RX, ln_mult, ln_exp by (try apply exp_pos; lra); ring).
    assert (RV : forall y j, fval f y = (j * 2 ^ (bias f - 2))%Z -> (real f y * IZR (2 * P) = IZR j)%R).
    { intros y j V. unfold real. rewrite V, O2, !mult_IZR. field. split; [apply Rgt_not_eq, IZR_lt; lia|lra]. }
    assert (R1 : (real f x1 * IZR (2 * P) = IZR (P + fr))%R) by (apply RV; exact V1).
    assert (SQ : (Rabs (real f (c_SQRTHF f) - 707106781186547524 / 1000000000000000000) <= 1 / 10000000)%R).
    { destruct (nb_lit f K 707106781186547524 (10 ^ 18) eq_refl eq_refl) as (_ & Q & _). change (lit f 707106781186547524 (10 ^ 18)) with (c_SQRTHF f) in Q.
      change (litE 707106781186547524 (10 ^ 18))%Z with (ltac:(let z := eval vm_compute in (litE 707106781186547524 (10 ^ 18))%Z in exact z)) in Q. change (IZR (10 ^ 18)) with 1000000000000000000%R in Q. eapply Rle_trans; [exact Q|]. scl. }
    apply Rabs_le3 in SQ.
    assert (FSQ : fin f (c_SQRTHF f)) by (apply (fin_of_val f K); destruct K as [-> | ->]; vm_compute; try split; congruence).
    destruct (fin_mag f K _ FSQ) as (_ & NS & _). assert (NS' : ~ fnan f (c_SQRTHF f)) by (intros C; apply (class_nan f K) in C; congruence).
    destruct (fin_mag f K _ F1) as (_ & N1 & _). assert (N1' : ~ fnan f x1) by (intros C; apply (class_nan f K) in C; congruence).
    assert (IN1 : inr f x1) by apply F1. assert (INo : inr f (c_one f)) by apply F1o.
    rewrite mult_IZR, plus_IZR in R1. assert (PF : (IZR fr < IZR P)%R) by (apply IZR_lt; lia). assert (F0 : (0 <= IZR fr)%R) by (apply IZR_le; lia).
    destruct (f_lt f x1 (c_SQRTHF f)) eqn:LT.
    - (* mantissa below sqrt(1/2) *)
      apply (lt_iff f x1 (c_SQRTHF f) K) in LT. destruct LT as (_ & _ & LT). apply (real_lt f K) in LT.
      unfold mask. assert (LO : forall y, inr f y -> Z.land y (ones f) = y) by (intros y Hy; unfold ones; replace (2 ^ fwidth f - 1)%Z with (Z.ones (fwidth f)) by (rewrite Z.ones_equiv; lia); rewrite Z.land_ones by (pose proof (fw_pos f K); lia); apply Z.mod_small; exact Hy). rewrite (LO x1 IN1), (LO (c_one f) INo).
      destruct (dyadic x2 x1 (2 * fr) F2 F1 ltac:(lia)) as [F3 V3]; [rewrite V1, V2; ring|].
      pose proof (int_sub _ _ _ _ I1 int_one ltac:(unfold n0; lia)) as I2. set (e2 := f_sub f e1 (c_one f)) in *. set (x3 := f_add f x2 x1) in *.
      pose proof (RV _ _ V3) as R3. rewrite !mult_IZR in R3. assert (R3' : real f x3 = (IZR fr / IZR P)%R) by (apply Rmult_eq_reg_r with (2 * IZR P)%R; [rewrite R3; field; lra|lra]).
      exists (E - bias f)%Z, x3, e2. split; [reflexivity|]. split; [replace (E - bias f + (bias f - c_0x7f f))%Z with (n0 + 1 - 1)%Z by (unfold n0; ring); exact I2|]. split; [lia|]. split; [exact F3|]. rewrite R3'. split; [exact LX|]. split; [|exists (2 * fr)%Z; rewrite !mult_IZR; field; lra].
      split; [lra|]. apply Rmult_le_reg_r with (2 * IZR P)%R; [lra|]. replace (IZR fr / IZR P * (2 * IZR P))%R with (2 * IZR fr)%R by (field; lra). nra.
    - assert (GE : (real f (c_SQRTHF f) <= real f x1)%R).
      { apply (real_le f K). destruct (Z.le_gt_cases (fval f (c_SQRTHF f)) (fval f x1)) as [|G]; [assumption|exfalso]. rewrite (bool_true _ _ (lt_iff f x1 (c_SQRTHF f) K)) in LT by (split; [assumption|split; [assumption|lia]]). discriminate. }
      cbn [mask]. rewrite !Z.land_0_r.
      destruct int_zero as [FZ VZ]. destruct (dyadic x2 0 (fr - P) F2 FZ ltac:(lia)) as [F3 V3]; [rewrite V2, VZ; ring|].
      pose proof (int_sub _ _ _ _ I1 int_zero ltac:(unfold n0; lia)) as I2. set (e2 := f_sub f e1 0) in *. set (x3 := f_add f x2 0) in *.
      pose proof (RV _ _ V3) as R3. rewrite mult_IZR, minus_IZR in R3. assert (R3' : real f x3 = ((IZR fr - IZR P) / (2 * IZR P))%R) by (apply Rmult_eq_reg_r with (2 * IZR P)%R; [rewrite R3; field; lra|lra]).
      exists (E - bias f + 1)%Z, x3, e2. split; [reflexivity|]. split; [replace (E - bias f + 1 + (bias f - c_0x7f f))%Z with (n0 + 1 - 0)%Z by (unfold n0; ring); exact I2|]. split; [lia|]. split; [exact F3|]. rewrite R3'.
      split; [|split].
      + rewrite LX. replace (1 + IZR fr / IZR P)%R with (2 * (1 + (IZR fr - IZR P) / (2 * IZR P)))%R by (field; lra).
        assert (Q : (0 < 1 + (IZR fr - IZR P) / (2 * IZR P))%R).
        { replace (1 + (IZR fr - IZR P) / (2 * IZR P))%R with ((IZR P + IZR fr) / (2 * IZR P))%R by (field; lra). apply Rmult_lt_0_compat; [lra|apply Rinv_0_lt_compat; lra]. }
        rewrite ln_mult by lra. rewrite plus_IZR. ring.
      + split; [|left; apply Rlt_trans with 0%R; [|lra]].
        * apply Rmult_le_reg_r with (2 * IZR P)%R; [lra|]. replace ((IZR fr - IZR P) / (2 * IZR P) * (2 * IZR P))%R with (IZR fr - IZR P)%R by (field; lra). nra.
        * apply Rmult_lt_reg_r with (2 * IZR P)%R; [lra|]. replace ((IZR fr - IZR P) / (2 * IZR P) * (2 * IZR P))%R with (IZR fr - IZR P)%R by (field; lra). lra.
      + exists (fr - P)%Z. rewrite mult_IZR, minus_IZR. field. lra.
  Qed.
End Log.
