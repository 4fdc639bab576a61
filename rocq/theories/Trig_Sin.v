(** Trig_Sin.v - how close np.sin and np.cos come to sin x and cos x (C63): polynomials, octant, reduction of the argument. *)
From Coq Require Import Reals Lra.
From Verif Require Import Base Kernel_Model Kernel_Proofs Kernel_Props Float_Model Compare_Model Compare_Proofs Compare_Props Unary_Model Unary_Proofs Unary_Props UnaryVal_Props Round_Model Round_Props Arith_Model Arith_Props Trig_Model Trig_Props Exp_Bounds Log_Bounds Sin_Bounds Trig_Real Trig_Near Trig_Exp Trig_Log.

Section Sin.
  Variable f : fmt.
  Hypothesis K : known f.
  Let P := (2 ^ fbits f)%Z.
  (** ---------- the two polynomials ---------- *)
  Lemma start x : fin f x -> (Rabs (real f x) <= 1183 / 1000)%R -> nb f x (real f x) 0 (up 1183 1000).
  Proof. intros Fx B. apply nb_exact; auto. eapply Rle_trans; [exact B|]. change (up 1183 1000) with (ltac:(let z := eval vm_compute in (up 1183 1000) in exact z)). scl. Qed.
  Lemma one : nb f (c_one f) 1 0 (up 1 1).
  Proof. destruct (int_one f K) as [A V]. apply nb_exact; [exact A|apply (int_real f K), int_one, K|]. rewrite Rabs_R1. change (up 1 1) with (ltac:(let z := eval vm_compute in (up 1 1) in exact z)). scl. Qed.
  Lemma half : nb f (c_0p5 f) (1 / 2) 0 (up 1 2).
  Proof.
    apply nb_exact; [apply (fin_of_val f K); destruct K as [-> | ->]; vm_compute; try split; congruence| |].
    - pose proof (o_pos f K) as O. assert (V : (2 * fval f (c_0p5 f) = one_val f)%Z) by (destruct K as [-> | ->]; vm_compute; reflexivity). apply IZR_eq in V. rewrite mult_IZR in V. unfold real. rewrite <- V in *. field. lra.
    - rewrite Rabs_pos_eq by lra. change (up 1 2) with (ltac:(let z := eval vm_compute in (up 1 2) in exact z)). scl.
  Qed.
  Lemma cos_poly_ok x : fin f x -> (Rabs (real f x) <= 1183 / 1000)%R -> let r := cos_poly f (f_mul f x x) in fin f r /\ (Rabs (real f r - cos_p (real f x * real f x)) <= 25 / 100000000)%R.
  Proof.
    intros Fx B r. pose proof (start x Fx B) as HX. norm HX. pose proof (nb_mul f K _ _ _ _ _ _ _ _ HX HX eq_refl) as HZ. norm HZ.
    unfold r, cos_poly, horner, cos_ps. cbn [fold_left].
    pose proof (nb_lit f K 2443315711809948 100000000000000000000 eq_refl eq_refl) as Q. norm Q. change (lit f 2443315711809948 100000000000000000000) with (cos_p0 f) in Q. rename Q into PP.
    mulr K PP HZ.
    pose proof (nb_lit f K (-1388731625493765) 1000000000000000000 eq_refl eq_refl) as Q. norm Q. change (lit f (-1388731625493765) 1000000000000000000) with (lit f (-1388731625493765) (10 ^ 18)) in Q.
    addr K PP Q. clear Q. mulr K PP HZ.
    pose proof (nb_lit f K 4166664568298827 100000000000000000 eq_refl eq_refl) as Q. norm Q. change (lit f 4166664568298827 100000000000000000) with (lit f 4166664568298827 (10 ^ 17)) in Q.
    addr K PP Q. clear Q. mulr K PP HZ. mulr K PP HZ.
    pose proof half as Q. norm Q. pose proof (nb_mul f K _ _ _ _ _ _ _ _ HZ Q eq_refl) as Q2. norm Q2. clear Q.
    pose proof (nb_sub f K _ _ _ _ _ _ _ _ PP Q2 eq_refl) as PQ. norm PQ. clear PP Q2.
    pose proof one as Q. norm Q. pose proof (nb_add_b f K (up 10001 10000) _ _ _ _ _ _ _ _ PQ Q) as PR.
    match type of PR with (Rabs ?v <= _)%R -> _ => replace v with (cos_p (real f x * real f x)) in PR by (unfold cos_p; field) end.
    specialize (PR ltac:(pose proof (cos_close_far _ B) as CC; pose proof (COS_bound (real f x)) as CB; apply Rabs_le3 in CC; apply le_Rabs; change (up 10001 10000) with (ltac:(let z := eval vm_compute in (up 10001 10000) in exact z)); scl) eq_refl). norm PR. clear PQ Q.
    destruct PR as (FY & EY & _). split; [exact FY|].
    eapply Rle_trans; [exact EY|]. scl.
  Qed.
  Lemma sin_poly_ok x : fin f x -> (Rabs (real f x) <= 1183 / 1000)%R -> let r := sin_poly f x (f_mul f x x) in fin f r /\ (Rabs (real f r - (sin_p (real f x * real f x) * real f x + real f x)) <= 25 / 100000000)%R.
  Proof.
    intros Fx B r. pose proof (start x Fx B) as HX. norm HX. pose proof (nb_mul f K _ _ _ _ _ _ _ _ HX HX eq_refl) as HZ. norm HZ.
    unfold r, sin_poly, horner, sin_ps. cbn [fold_left].
    pose proof (nb_lit f K (-19515295891) 100000000000000 eq_refl eq_refl) as Q. norm Q. change (lit f (-19515295891) 100000000000000) with (sin_p0 f) in Q. rename Q into PP.
    mulr K PP HZ.
    pose proof (nb_lit f K 83321608736 10000000000000 eq_refl eq_refl) as Q. norm Q. change (lit f 83321608736 10000000000000) with (lit f 83321608736 (10 ^ 13)) in Q.
    addr K PP Q. clear Q. mulr K PP HZ.
    pose proof (nb_lit f K (-16666654611) 100000000000 eq_refl eq_refl) as Q. norm Q. change (lit f (-16666654611) 100000000000) with (lit f (-16666654611) (10 ^ 11)) in Q.
    addr K PP Q. clear Q. mulr K PP HZ. mulr K PP HX.
    pose proof (nb_add_b f K (up 10001 10000) _ _ _ _ _ _ _ _ PP HX) as PR.
    match type of PR with (Rabs ?v <= _)%R -> _ => replace v with (sin_p (real f x * real f x) * real f x + real f x)%R in PR by (unfold sin_p; field) end.
    specialize (PR ltac:(pose proof (sin_close_far _ B) as CC; pose proof (SIN_bound (real f x)) as CB; apply Rabs_le3 in CC; apply le_Rabs; change (up 10001 10000) with (ltac:(let z := eval vm_compute in (up 10001 10000) in exact z)); scl) eq_refl). norm PR. clear PP.
    destruct PR as (FY & EY & _). split; [exact FY|].
    eapply Rle_trans; [exact EY|]. scl.
  Qed.
  (** ---------- conversion to an integer ---------- *)
  Lemma magic_val n : (Z.abs n <= 2 ^ 22)%Z -> mag_value DBL (4843621399236968448 + n) = ((6755399441055744 + n) * one_val DBL)%Z.
  Proof.
    intros H. assert (O : one_val DBL = (2 ^ 1074)%Z) by (vm_compute; reflexivity). change (2 ^ 22)%Z with 4194304%Z in H.
    unfold mag_value. change (2 ^ fbits DBL)%Z with 4503599627370496%Z.
    replace ((4843621399236968448 + n) / 4503599627370496)%Z with 1075%Z by (apply (Z.div_unique _ _ _ (2251799813685248 + n)); lia).
    replace ((4843621399236968448 + n) mod 4503599627370496)%Z with (2251799813685248 + n)%Z by (apply (Z.mod_unique _ _ 1075); lia).
    change (1075 =? 0)%Z with false. cbv iota. rewrite O. change (1075 - 1)%Z with 1074%Z. f_equal. lia.
  Qed.
  Lemma dbl_to_int t : fin DBL t -> (0 <= fval DBL t <= 20000 * one_val DBL)%Z ->
    exists n, double_to_int64 t = n /\ (0 <= n <= 20001)%Z /\ (2 * Z.abs (fval DBL t - n * one_val DBL) <= one_val DBL)%Z.
  Proof.
    intros Ft B. assert (KD : known DBL) by now right. unfold double_to_int64. assert (MG : magic = 4843621399236968448%Z) by (vm_compute; reflexivity). rewrite MG.
    assert (FM : fin DBL 4843621399236968448 /\ fval DBL 4843621399236968448 = (6755399441055744 * one_val DBL)%Z).
    { split; [split; [vm_compute; split; congruence|intros C; vm_compute in C; discriminate]|vm_compute; reflexivity]. }
    destruct FM as [FM VM]. destruct (uv DBL KD) as [U1 U2]. pose proof magic_val as MV. remember (one_val DBL) as O eqn:EO.
    destruct (fin_mag DBL KD t Ft) as (_ & N1 & I1). destruct (fin_mag DBL KD _ FM) as (_ & N2 & I2). unfold f_add. rewrite N1, N2, I1, I2. cbn [orb].
    change (signed_value DBL) with (fval DBL). rewrite VM. set (s := (fval DBL t + 6755399441055744 * O)%Z).
    assert (S0 : (0 < s)%Z) by (unfold s; lia). rewrite (proj2 (Z.eqb_neq s 0)), (proj2 (Z.ltb_ge s 0)) by lia. rewrite Z.abs_eq by lia.
    destruct (rnd_ok DBL KD s 1 ltac:(lia) ltac:(lia)) as [R NE]. set (g := rnd_mag DBL s 1) in *. unfold put_sign. rewrite Z.add_0_l.
    set (n := (fval DBL t / O)%Z). assert (N : (n * O <= fval DBL t < (n + 1) * O)%Z).
    { unfold n. pose proof (Z.div_mod (fval DBL t) O ltac:(lia)). pose proof (Z.mod_pos_bound (fval DBL t) O U2). lia. }
    assert (NB : (0 <= n <= 20000)%Z) by (split; [apply Z.div_pos; lia|apply Z.lt_succ_r, Z.div_lt_upper_bound; lia]). clearbody n.
    pose proof (MV n ltac:(lia)) as VA. pose proof (MV (n + 1)%Z ltac:(lia)) as VB. clear MV.
    assert (I : finf DBL = 9218868437227405312%Z) by reflexivity. assert (I3 : (9218868437227405312 < 2 ^ (fwidth DBL - 1))%Z) by reflexivity. rewrite I in *.
    assert (NE' : forall z, (0 <= z <= 9218868437227405312)%Z -> z <> g -> (Z.abs (mag_value DBL g - s) <= Z.abs (mag_value DBL z - s))%Z).
    { intros z Hz Hn. specialize (NE z Hz Hn). rewrite <- !(mv_small DBL), !Z.mul_1_r in NE by lia. lia. }
    assert (G : g = (4843621399236968448 + n)%Z \/ g = (4843621399236968448 + (n + 1))%Z).
    { destruct (Z.lt_trichotomy g (4843621399236968448 + n)) as [L|[L|L]]; [|auto|].
      - exfalso. pose proof (mv_mono DBL KD g _ (conj (proj1 R) L)) as M. specialize (NE' (4843621399236968448 + n)%Z ltac:(lia) ltac:(lia)). unfold s in NE'. lia.
      - destruct (Z.eq_dec g (4843621399236968448 + (n + 1))) as [|Ne]; [auto|exfalso]. pose proof (mv_mono DBL KD (4843621399236968448 + (n + 1)) g ltac:(lia)) as M. specialize (NE' (4843621399236968448 + (n + 1))%Z ltac:(lia) ltac:(lia)). unfold s in NE'. lia. }
    unfold i_subl. change (2 ^ fwidth DBL)%Z with 18446744073709551616%Z. destruct G as [G|G]; rewrite G.
    - exists n. specialize (NE' (4843621399236968448 + (n + 1))%Z ltac:(lia) ltac:(lia)). rewrite G, VA, VB in NE'. unfold s in NE'.
      split; [replace (4843621399236968448 + n - 4843621399236968448)%Z with n by lia; apply Z.mod_small; lia|]. split; lia.
    - exists (n + 1)%Z. specialize (NE' (4843621399236968448 + n)%Z ltac:(lia) ltac:(lia)). rewrite G, VA, VB in NE'. unfold s in NE'.
      split; [replace (4843621399236968448 + (n + 1) - 4843621399236968448)%Z with (n + 1)%Z by lia; apply Z.mod_small; lia|]. split; lia.
  Qed.
  Lemma flt_to_int t : fin FLT t -> (0 <= fval FLT t <= 20000 * one_val FLT)%Z ->
    exists n, cvttps_epi32 t = n /\ (0 <= n <= 20001)%Z /\ (n * one_val FLT <= fval FLT t < (n + 1) * one_val FLT)%Z.
  Proof.
    intros Ft B. assert (KF : known FLT) by now left. destruct (uv FLT KF) as [U1 U2]. destruct (fin_mag FLT KF t Ft) as (_ & N1 & I1). unfold cvttps_epi32. rewrite N1, I1, U1. cbn [orb].
    change (signed_value FLT) with (fval FLT). rewrite Z.quot_div_nonneg by lia. set (n := (fval FLT t / one_val FLT)%Z).
    assert (N : (n * one_val FLT <= fval FLT t < (n + 1) * one_val FLT)%Z).
    { unfold n. pose proof (Z.div_mod (fval FLT t) (one_val FLT) ltac:(lia)). pose proof (Z.mod_pos_bound (fval FLT t) (one_val FLT) U2). lia. }
    assert (NB : (0 <= n <= 20000)%Z) by (split; [apply Z.div_pos; lia|apply Z.lt_succ_r, Z.div_lt_upper_bound; lia]). clearbody n.
    destruct (Z.ltb_spec n (- 2 ^ 31)); [lia|]. destruct (Z.ltb_spec (2 ^ 31 - 1) n); [lia|]. exists n. split; [apply Z.mod_small; lia|]. split; [lia|exact N].
  Qed.
  (** how far the argument may be from the even multiple of pi/4 that is chosen, in multiples of pi/4 *)
  Definition wid : R := if isF f then 1%R else (3 / 2)%R.
  Lemma to_int_near t : fin f t -> (0 <= real f t <= 20000)%R -> exists n, to_int f t = n /\ (0 <= n <= 20001)%Z /\ (1 - wid <= real f t - IZR n)%R /\ (real f t - IZR n <= 1)%R.
  Proof.
    intros Ft B. pose proof (o_pos f K) as OP. assert (B' : (0 <= fval f t <= 20000 * one_val f)%Z).
    { split; apply le_IZR; rewrite ?mult_IZR, (fval_real f K); nra. }
    unfold to_int, wid. destruct (isF_iff f K) as [[EF ->]|[EF ->]].
    - rewrite EF in *. destruct (flt_to_int t Ft B') as (n & E & N & L). exists n. split; [exact E|]. split; [exact N|]. destruct L as [L1 L2]. apply IZR_le in L1. apply IZR_lt in L2.
      rewrite mult_IZR, (fval_real FLT) in L1, L2 by now left. rewrite plus_IZR in L2. nra.
    - rewrite EF in *. destruct (dbl_to_int t Ft B') as (n & E & N & L). exists n. split; [exact E|]. split; [exact N|].
      assert (L1 : (2 * (fval DBL t - n * one_val DBL) <= one_val DBL)%Z) by lia. assert (L2 : (- one_val DBL <= 2 * (fval DBL t - n * one_val DBL))%Z) by lia. clear L.
      apply IZR_le in L1, L2. rewrite opp_IZR, mult_IZR, minus_IZR, mult_IZR, (fval_real DBL) in L2 by now right. rewrite mult_IZR, minus_IZR, mult_IZR, (fval_real DBL) in L1 by now right. nra.
  Qed.
  (** ---------- the octant ---------- *)
  Lemma even_part a w : (1 <= w)%Z -> (0 <= a < 2 ^ w)%Z -> Z.land a (2 ^ w - 1 - 1) = (2 * (a / 2))%Z.
  Proof.
    intros Hw Ha. replace (2 ^ w - 1 - 1)%Z with (2 * Z.ones (w - 1))%Z by (rewrite Z.ones_equiv; replace w with (Z.succ (w - 1)) at 2 by lia; rewrite Z.pow_succ_r by lia; lia).
    apply Z.bits_inj'. intros k Hk. rewrite Z.land_spec. destruct (Z.eq_dec k 0) as [->|Nk]; [rewrite !Z.testbit_even_0; apply andb_false_r|].
    replace k with (Z.succ (k - 1)) by lia. rewrite !Z.testbit_even_succ by lia. replace (Z.testbit a (Z.succ (k - 1))) with (Z.testbit (a / 2) (k - 1)) by (rewrite <- Z.div2_div, Z.div2_spec, Z.shiftr_spec by lia; f_equal; lia).
    destruct (Z.lt_ge_cases (k - 1) (w - 1)) as [L|L]; [rewrite Z.ones_spec_low by lia; apply andb_true_r|].
    rewrite Z.ones_spec_high by lia. rewrite andb_false_r. symmetry. apply (bits_high (w - 1)); [lia| |lia].
    split; [apply Z.div_pos; lia|]. apply Z.div_lt_upper_bound; [lia|]. rewrite <- Z.pow_succ_r by lia. replace (Z.succ (w - 1)) with w by lia. lia.
  Qed.
  Lemma mul_nonneg x c : fin f x -> fin f c -> fneg f c = false -> (0 <= fval f x)%Z -> (Z.abs (fval f x * fval f c) <= max_fin f * one_val f)%Z -> (0 <= fval f (f_mul f x c))%Z.
  Proof.
    intros Fx Fc N H B. rewrite (mul_val f K x c Fx Fc N B). destruct (uv f K) as [_ U]. assert (C : (0 <= fval f c)%Z) by (unfold fval; rewrite N; apply (absval_pos f K)).
    pose proof (rounded_mono f K 0 (fval f x * fval f c) (one_val f) ltac:(nia) U) as M. unfold rounded_val at 1 in M. cbn [Z.ltb Z.compare Z.abs] in M. rewrite (rnd_0 f K), (mv_0 f K) in M by exact U. exact M.
  Qed.
  Lemma octant_ok ax : fin f ax -> (0 <= real f ax <= 8192)%R -> exists j, octant f ax = j /\ (0 <= j <= 10432)%Z /\ Z.even j = true /\
    (Rabs (real f ax - IZR j * (PI / 4)) <= (wid + 15 / 10000) * (PI / 4))%R.
  Proof.
    intros Fa B. pose proof (o_pos f K) as OP.
    assert (HX : nb f ax (real f ax) 0 (up 8192 1)).
    { apply nb_exact; auto. rewrite Rabs_pos_eq by lra. change (up 8192 1) with (ltac:(let z := eval vm_compute in (up 8192 1) in exact z)). scl. }
    norm HX. pose proof (nb_lit f K 127323954473516 100000000000000 eq_refl eq_refl) as HL. norm HL. change (lit f 127323954473516 100000000000000) with (c_FOPI f) in HL.
    assert (Fc : fin f (c_FOPI f)) by apply HL.
    pose proof (nb_mul f K _ _ _ _ _ _ _ _ HX HL eq_refl) as H1. norm H1. set (t := f_mul f ax (c_FOPI f)) in *. destruct H1 as (Ft & Et & Bt).
    assert (E1 : (Rabs (real f t - real f ax * (127323954473516 / 100000000000000)) <= 14 / 10000)%R) by (eapply Rle_trans; [exact Et|scl]). apply Rabs_le3 in E1. clear Et Bt HX HL.
    assert (T0 : (0 <= real f t)%R).
    { replace 0%R with (real f 0). 2:{ unfold real. destruct (fval0 f K) as [-> _]. unfold Rdiv. ring. }
      apply (real_le f K). destruct (fval0 f K) as [Z0 _]. rewrite Z0. apply mul_nonneg; try assumption.
      - destruct K as [-> | ->]; vm_compute; reflexivity.
      - apply le_IZR. rewrite (fval_real f K). nra.
      - assert (C : (0 <= fval f (c_FOPI f) <= 2 * one_val f)%Z) by (destruct K as [-> | ->]; vm_compute; split; discriminate).
        assert (A : (0 <= fval f ax <= 8192 * one_val f)%Z) by (split; apply le_IZR; rewrite ?mult_IZR, (fval_real f K); nra).
        destruct (uv f K) as [_ U]. assert (M : (16384 * one_val f <= max_fin f)%Z) by (destruct K as [-> | ->]; vm_compute; discriminate).
        rewrite Z.abs_eq by nia. nia. }
    destruct (to_int_near t Ft) as (n & E & N & L1 & L2); [lra|].
    assert (N2 : (n <= 10431)%Z).
    { assert (W : (1 - wid >= - (1 / 2))%R) by (unfold wid; destruct (isF f); lra). assert (IZR n < IZR 10432)%R by lra. apply lt_IZR in H. lia. }
    unfold octant. fold t. rewrite E. unfold i_addl, c_inv1, ones. assert (FW : (32 <= fwidth f)%Z) by (destruct K as [-> | ->]; vm_compute; discriminate).
    assert (P32 : (2 ^ 32 <= 2 ^ fwidth f)%Z) by (apply Z.pow_le_mono_r; lia). change (2 ^ 32)%Z with 4294967296%Z in P32.
    rewrite (Z.mod_small (n + 1)) by lia. rewrite even_part by lia. set (j := (2 * ((n + 1) / 2))%Z).
    assert (J : j = n \/ j = (n + 1)%Z) by (unfold j; pose proof (Z.div_mod (n + 1) 2 ltac:(lia)); pose proof (Z.mod_pos_bound (n + 1) 2 ltac:(lia)); lia).
    exists j. split; [reflexivity|]. split; [lia|]. split; [unfold j; rewrite Z.even_mul; reflexivity|].
    assert (W : (Rabs (real f t - IZR j) <= wid)%R).
    { assert (1 <= wid)%R by (unfold wid; destruct (isF f); lra). apply le_Rabs. destruct J as [-> | ->]; rewrite ?plus_IZR; lra. }
    apply Rabs_le3 in W. pose proof pi_bounds as PB. set (q := (PI / 4)%R) in *.
    assert (D : (Rabs (real f ax * (127323954473516 / 100000000000000 * q - 1)) <= 1 / 10000000000)%R).
    { rewrite Rabs_mult, (Rabs_pos_eq (real f ax)) by lra. apply Rle_trans with (8192 * (1 / 100000000000000))%R; [|lra]. apply Rmult_le_compat; try lra; [apply Rabs_pos|]. apply le_Rabs. split; lra. }
    apply Rabs_le3 in D. apply le_Rabs. set (X := real f ax) in *. set (T := real f t) in *.
    replace (X - IZR j * q)%R with ((T - IZR j) * q - (T - X * (127323954473516 / 100000000000000)) * q - X * (127323954473516 / 100000000000000 * q - 1))%R by ring.
    assert (Q0 : (0 < q)%R) by lra. split; nra.
  Qed.
  (** ---------- the reduction ---------- *)
  Lemma int_mul_exact y n c A m k : is_int f y n -> fin f c -> (0 <= k <= 100)%Z -> (2 ^ k * fval f c = A * one_val f)%Z ->
    (n * A = m \/ n * A = 2 * m)%Z -> (Z.abs m < 2 ^ 24)%Z -> fin f (f_mul f y c) /\ real f (f_mul f y c) = (IZR n * (IZR A / IZR (2 ^ k)))%R.
  Proof.
    intros [Fy Vy] Fc Hk Hc Hm Bm. destruct (uv f K) as [U1 U2]. set (w := if isF f then 149%Z else 1074%Z).
    assert (O : one_val f = (2 ^ w)%Z /\ (149 <= w)%Z) by (unfold w; destruct K as [-> | ->]; vm_compute; split; congruence). destruct O as [O W].
    assert (PK : (0 < 2 ^ k)%Z) by (apply Z.pow_pos_nonneg; lia). assert (OK : one_val f = (2 ^ k * 2 ^ (w - k))%Z) by (rewrite O, <- Z.pow_add_r by lia; f_equal; lia).
    assert (VC : fval f c = (A * 2 ^ (w - k))%Z) by (apply Z.mul_reg_l with (2 ^ k)%Z; [lia|]; rewrite Hc, OK; ring).
    assert (EX : exists g, (0 <= g < finf f)%Z /\ mag_value f g = Z.abs (n * A * 2 ^ (w - k))).
    { assert (PW : (0 < 2 ^ (w - k))%Z) by (apply Z.pow_pos_nonneg; lia).
      destruct Hm as [Hm|Hm]; rewrite Hm.
      - destruct (repr f K (w - k) ltac:(lia) (Z.abs m)) as (g & G1 & G2).
        + assert (2 ^ 24 <= 2 * 2 ^ fbits f)%Z by (destruct K as [-> | ->]; vm_compute; discriminate). lia.
        + apply Z.le_trans with (2 ^ 24 * 2 ^ w)%Z; [apply Z.mul_le_mono_nonneg; try lia; apply Z.pow_le_mono_r; lia|]. unfold w. destruct K as [-> | ->]; vm_compute; discriminate.
        + exists g. split; [exact G1|]. rewrite G2, Z.abs_mul, (Z.abs_eq (2 ^ (w - k))) by lia. reflexivity.
      - destruct (repr f K (w - k + 1) ltac:(lia) (Z.abs m)) as (g & G1 & G2).
        + assert (2 ^ 24 <= 2 * 2 ^ fbits f)%Z by (destruct K as [-> | ->]; vm_compute; discriminate). lia.
        + apply Z.le_trans with (2 ^ 24 * 2 ^ (w + 1))%Z; [apply Z.mul_le_mono_nonneg; try lia; apply Z.pow_le_mono_r; lia|]. unfold w. destruct K as [-> | ->]; vm_compute; discriminate.
        + exists g. split; [exact G1|]. rewrite G2, Z.pow_add_r by lia. replace (2 * m * 2 ^ (w - k))%Z with (m * (2 ^ (w - k) * 2 ^ 1))%Z by (change (2 ^ 1)%Z with 2%Z; ring).
          rewrite (Z.abs_mul m), (Z.abs_eq (2 ^ (w - k) * 2 ^ 1)) by lia. reflexivity. }
    destruct EX as (g & G1 & G2). destruct (mul_exact f K y c g Fy Fc G1) as [A' V].
    { rewrite G2, Vy, VC. replace (n * one_val f * (A * 2 ^ (w - k)))%Z with (n * A * 2 ^ (w - k) * one_val f)%Z by ring. rewrite (Z.abs_mul _ (one_val f)), (Z.abs_eq (one_val f)) by lia. reflexivity. }
    split; [exact A'|]. assert (V' : (fval f (f_mul f y c) = n * (A * 2 ^ (w - k)))%Z) by (apply Z.mul_reg_r with (one_val f); [lia|]; rewrite V, Vy, VC; ring).
    unfold real. rewrite V', OK, !mult_IZR. field. split; apply not_0_IZR; [|lia]. assert (0 < 2 ^ (w - k))%Z by (apply Z.pow_pos_nonneg; lia). lia.
  Qed.
  Lemma reduced_ok ax y j : fin f ax -> (0 <= real f ax <= 8192)%R -> is_int f y j -> (0 <= j <= 10432)%Z -> Z.even j = true -> (Rabs (real f ax - IZR j * (PI / 4)) <= 118 / 100)%R ->
    let r := reduced f ax y in fin f r /\ (Rabs (real f r - (real f ax - IZR j * (PI / 4))) <= 4 / 10000000)%R.
  Proof.
    intros Fa Ba Iy Hj Ev Br r. pose proof pi_bounds as PB. set (q := (PI / 4)%R) in *. set (X := real f ax) in *. set (rho := (X - IZR j * q)%R) in *.
    assert (J : (0 <= IZR j <= 10432)%R) by (split; apply IZR_le; lia).
    assert (C1 : fin f (m_DP1 f) /\ (2 ^ 8 * fval f (m_DP1 f) = -201 * one_val f)%Z) by (split; [apply (fin_of_val f K)|]; destruct K as [-> | ->]; vm_compute; try split; congruence).
    assert (C2 : fin f (m_DP2 f) /\ (2 ^ 23 * fval f (m_DP2 f) = -2029 * one_val f)%Z) by (split; [apply (fin_of_val f K)|]; destruct K as [-> | ->]; vm_compute; try split; congruence).
    apply Z.even_spec in Ev. destruct Ev as [h Eh].
    destruct (int_mul_exact y j (m_DP1 f) (-201) (j * -201) 8 Iy (proj1 C1) ltac:(lia) (proj2 C1) ltac:(auto) ltac:(lia)) as [F1 V1].
    destruct (int_mul_exact y j (m_DP2 f) (-2029) (h * -2029) 23 Iy (proj1 C2) ltac:(lia) (proj2 C2) ltac:(right; lia) ltac:(lia)) as [F2 V2].
    change (IZR (2 ^ 8)) with 256%R in V1. change (IZR (2 ^ 23)) with 8388608%R in V2.
    assert (HX : nb f ax X 0 (up 8192 1)).
    { apply nb_exact; auto. rewrite Rabs_pos_eq by lra. change (up 8192 1) with (ltac:(let z := eval vm_compute in (up 8192 1) in exact z)). scl. }
    assert (H1 : nb f (f_mul f y (m_DP1 f)) (IZR j * (-201 / 256)) 0 (up 8192 1)).
    { apply nb_exact; auto. apply le_Rabs. change (up 8192 1) with (ltac:(let z := eval vm_compute in (up 8192 1) in exact z)). unfold sc. change S80 with 1208925819614629174706176%Z. split; lra. }
    assert (H2 : nb f (f_mul f y (m_DP2 f)) (IZR j * (-2029 / 8388608)) 0 (up 3 1)).
    { apply nb_exact; auto. apply le_Rabs. change (up 3 1) with (ltac:(let z := eval vm_compute in (up 3 1) in exact z)). unfold sc. change S80 with 1208925819614629174706176%Z. split; lra. }
    assert (H3 : nb f y (IZR j) 0 (up 10432 1)).
    { apply nb_exact; [apply Iy|now apply (int_real f K)|]. rewrite Rabs_pos_eq by lra. change (up 10432 1) with (ltac:(let z := eval vm_compute in (up 10432 1) in exact z)). scl. }
    norm HX. norm H1. norm H2. norm H3.
    pose proof (nb_lit f K (-377489497744594108) 10000000000000000000000000 eq_refl eq_refl) as HL. norm HL. change (lit f (-377489497744594108) 10000000000000000000000000) with (m_DP3 f) in HL.
    pose proof (nb_mul f K _ _ _ _ _ _ _ _ H3 HL eq_refl) as H4. norm H4. clear HL H3. apply Rabs_le3 in Br.
    assert (JQ : forall a b c, (a <= q - c <= b)%R -> (a <= 0 <= b)%R -> (10432 * a <= IZR j * (q - c) <= 10432 * b)%R) by (intros a b c Hab Hz; split; nra).
    pose proof (JQ 0 (243 / 1000000) (201 / 256) ltac:(lra) ltac:(lra))%R as Q1.
    pose proof (JQ 0 (1 / 20000000) (201 / 256 + 2029 / 8388608) ltac:(lra) ltac:(lra))%R as Q2.
    pose proof (JQ (- (2 / 1000000000000000)) (2 / 1000000000000000) (201 / 256 + 2029 / 8388608 + 377489497744594108 / 10000000000000000000000000) ltac:(lra) ltac:(lra))%R as Q3. clear JQ.
    pose proof (nb_add_b f K (up 3716 1000) _ _ _ _ _ _ _ _ HX H1) as S1.
    assert (R1 : (X + IZR j * (-201 / 256) = rho + IZR j * (q - 201 / 256))%R) by (unfold rho; field).
    specialize (S1 ltac:(rewrite R1; apply le_Rabs; change (up 3716 1000) with (ltac:(let z := eval vm_compute in (up 3716 1000) in exact z)); unfold sc; change S80 with 1208925819614629174706176%Z; split; lra) eq_refl). norm S1.
    pose proof (nb_add_b f K (up 1181 1000) _ _ _ _ _ _ _ _ S1 H2) as S2.
    assert (R2 : (X + IZR j * (-201 / 256) + IZR j * (-2029 / 8388608) = rho + IZR j * (q - (201 / 256 + 2029 / 8388608)))%R) by (unfold rho; field).
    specialize (S2 ltac:(rewrite R2; apply le_Rabs; change (up 1181 1000) with (ltac:(let z := eval vm_compute in (up 1181 1000) in exact z)); unfold sc; change S80 with 1208925819614629174706176%Z; split; lra) eq_refl). norm S2.
    pose proof (nb_add_b f K (up 1181 1000) _ _ _ _ _ _ _ _ S2 H4) as S3.
    assert (R3 : (X + IZR j * (-201 / 256) + IZR j * (-2029 / 8388608) + IZR j * (-377489497744594108 / 10000000000000000000000000) = rho + IZR j * (q - (201 / 256 + 2029 / 8388608 + 377489497744594108 / 10000000000000000000000000)))%R) by (unfold rho; field).
    specialize (S3 ltac:(rewrite R3; apply le_Rabs; change (up 1181 1000) with (ltac:(let z := eval vm_compute in (up 1181 1000) in exact z)); unfold sc; change S80 with 1208925819614629174706176%Z; split; lra) eq_refl). norm S3.
    rewrite R3 in S3. destruct S3 as (FR & ER & _). split; [exact FR|]. unfold r, reduced. apply Rabs_le3 in ER. unfold sc in ER. change S80 with 1208925819614629174706176%Z in ER. apply le_Rabs. split; lra.
  Qed.
End Sin.
