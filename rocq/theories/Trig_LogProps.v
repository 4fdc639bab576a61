(** Trig_LogProps.v - C60: how close np.log comes to ln x. *)
From Coq Require Import Reals Lra.
From Verif Require Import Base Kernel_Model Kernel_Proofs Kernel_Props Float_Model Compare_Model Compare_Proofs Compare_Props Unary_Model Unary_Proofs Unary_Props UnaryVal_Props Round_Model Round_Props Arith_Model Arith_Props Trig_Model Trig_Props Exp_Bounds Log_Bounds Trig_Real Trig_Near Trig_Exp Trig_ExpProps Trig_Log.

Ltac litc f K num den small := pose proof (nb_lit f K num den eq_refl eq_refl) as small; norm small.
Section LogTail.
  Variable f : fmt.
  Hypothesis K : known f.

  Lemma q2_exact e n : is_int f e n -> (Z.abs n <= 2047)%Z -> fin f (f_mul f e (log_q2 f)) /\ real f (f_mul f e (log_q2 f)) = (IZR n * (355 / 512))%R.
  Proof.
    intros [Fe Ve] Hn. assert (FC : fin f (log_q2 f) /\ (512 * fval f (log_q2 f) = 355 * one_val f)%Z).
    { destruct K as [-> | ->]; (split; [split; [vm_compute; split; congruence|intros C; vm_compute in C; discriminate]|vm_compute; reflexivity]). }
    destruct FC as [FC VC]. destruct (uv f K) as [U1 U2].
    destruct (repr f K (if isF f then 140 else 1065) ltac:(destruct (isF f); lia) (Z.abs n * 355)) as (g & G1 & G2).
    { destruct K as [-> | ->]; cbn; lia. }
    { apply Z.le_trans with (726685 * 2 ^ (if isF f then 140 else 1065))%Z; [apply Z.mul_le_mono_nonneg_r; [destruct (isF f); lia|lia]|destruct K as [-> | ->]; vm_compute; discriminate]. }
    assert (O : one_val f = (512 * 2 ^ (if isF f then 140 else 1065))%Z) by (destruct K as [-> | ->]; vm_compute; reflexivity).
    destruct (mul_exact f K e (log_q2 f) g Fe FC G1) as [A V].
    { rewrite G2, Ve. replace (n * one_val f * fval f (log_q2 f))%Z with (n * 355 * 2 ^ (if isF f then 140 else 1065) * one_val f)%Z.
      - rewrite !Z.abs_mul. rewrite (Z.abs_eq (one_val f)), (Z.abs_eq (2 ^ _)) by (try lia; destruct (isF f); lia). change (Z.abs 355) with 355%Z. reflexivity.
      - set (c := fval f (log_q2 f)) in *. set (q := (2 ^ (if isF f then 140 else 1065))%Z) in *. nia. }
    split; [exact A|]. pose proof (o_pos f K) as OP. apply IZR_eq in V. apply IZR_eq in VC. rewrite !mult_IZR, Ve, mult_IZR, !(fval_real f K) in V. rewrite !mult_IZR, (fval_real f K) in VC.
    set (o := IZR (one_val f)) in *. assert (CC : real f (log_q2 f) = (355 / 512)%R) by nra. rewrite CC in V. apply Rmult_eq_reg_r with (o * o)%R; nra.
  Qed.
  (** 10^12 times the polynomial in the kernel's Horner loop *)
  Definition kpoly (r : R) : R := ((((((((70376836292 / 1000000000000 * r + -11514610310 / 100000000000) * r + 11676998740 / 100000000000) * r + -12420140846 / 100000000000) * r + 14249322787 / 100000000000) * r
    + -16668057665 / 100000000000) * r + 20000714765 / 100000000000) * r + -24999993993 / 100000000000) * r + 33333331174 / 100000000000)%R.
  Lemma kpoly_ln r : (r + (kpoly r * r * (r * r) - r * r * (1 / 2)) = pev ln_poly r / 1000000000000)%R.
  Proof. unfold kpoly. cbn [ln_poly pev]. field. Qed.
  Lemma log_horner x : fin f x -> (Rabs (real f x) <= 41422 / 100000)%R -> nb f (horner f x (log_p0 f) (log_ps f)) (kpoly (real f x)) (up 9 100000000) (up 5 10).
  Proof.
    intros Fx Bx. assert (HX : nb f x (real f x) 0 (up 41422 100000)).
    { apply nb_exact; auto. eapply Rle_trans; [exact Bx|]. change (up 41422 100000) with (ltac:(let z := eval vm_compute in (up 41422 100000) in exact z)). scl. }
    unfold horner, log_ps. cbn [fold_left].
    litc f K 70376836292%Z 1000000000000%Z P. change (lit f 70376836292 1000000000000) with (log_p0 f) in P.
    mulr K P HX. litc f K (-11514610310)%Z 100000000000%Z qq. change (lit f (-11514610310) 100000000000) with (lit f (-11514610310) (10 ^ 11)) in qq. addr K P qq. clear qq.
    mulr K P HX. litc f K 11676998740%Z 100000000000%Z qq. change (lit f 11676998740 100000000000) with (lit f 11676998740 (10 ^ 11)) in qq. addr K P qq. clear qq.
    mulr K P HX. litc f K (-12420140846)%Z 100000000000%Z qq. change (lit f (-12420140846) 100000000000) with (lit f (-12420140846) (10 ^ 11)) in qq. addr K P qq. clear qq.
    mulr K P HX. litc f K 14249322787%Z 100000000000%Z qq. change (lit f 14249322787 100000000000) with (lit f 14249322787 (10 ^ 11)) in qq. addr K P qq. clear qq.
    mulr K P HX. litc f K (-16668057665)%Z 100000000000%Z qq. change (lit f (-16668057665) 100000000000) with (lit f (-16668057665) (10 ^ 11)) in qq. addr K P qq. clear qq.
    mulr K P HX. litc f K 20000714765%Z 100000000000%Z qq. change (lit f 20000714765 100000000000) with (lit f 20000714765 (10 ^ 11)) in qq. addr K P qq. clear qq.
    mulr K P HX. litc f K (-24999993993)%Z 100000000000%Z qq. change (lit f (-24999993993) 100000000000) with (lit f (-24999993993) (10 ^ 11)) in qq. addr K P qq. clear qq.
    mulr K P HX. litc f K 33333331174%Z 100000000000%Z qq. change (lit f 33333331174 100000000000) with (lit f 33333331174 (10 ^ 11)) in qq. addr K P qq. clear qq.
    eapply (nb_weak f); [exact P|vm_compute; reflexivity|vm_compute; reflexivity].
  Qed.
  (** the tail, absolute error *)
  Lemma log_tail_abs x e n : fin f x -> (-293 / 1000 <= real f x <= 41422 / 100000)%R -> is_int f e n -> (Z.abs n <= 2047)%Z -> let r := log_tail f x e in
    let L := (IZR n * ln 2 + ln (1 + real f x))%R in fin f r /\ (Rabs (real f r - L) <= 26 / 100000000 + 1 / 16000000 * Rabs L)%R.
  Proof.
    intros Fx Bx He Hn r L. assert (Bx' : (Rabs (real f x) <= 41422 / 100000)%R) by (apply le_Rabs; lra).
    pose proof (log_horner x Fx Bx') as HP. pose proof (int_real f K e n He) as RE. destruct (q2_exact e n He Hn) as [F2 R2].
    unfold r, log_tail. cbv zeta. set (h := horner f x (log_p0 f) (log_ps f)) in *. clearbody h. set (X := real f x) in *.
    assert (HX : nb f x X 0 (up 41422 100000)).
    { apply nb_exact; auto. eapply Rle_trans; [exact Bx'|]. change (up 41422 100000) with (ltac:(let z := eval vm_compute in (up 41422 100000) in exact z)). scl. }
    assert (NB : (Rabs (IZR n) <= 2047)%R) by (rewrite <- abs_IZR; apply IZR_le; exact Hn).
    assert (HE : nb f e (IZR n) 0 (up 2047 1)).
    { apply nb_exact; [apply He|exact RE|]. eapply Rle_trans; [exact NB|]. change (up 2047 1) with (ltac:(let z := eval vm_compute in (up 2047 1) in exact z)). scl. }
    pose proof (nb_mul f K _ _ _ _ _ _ _ _ HX HX eq_refl) as HZ. norm HZ.
    mulr K HP HX. mulr K HP HZ.
    litc f K (-212194440)%Z 1000000000000%Z q1. change (lit f (-212194440) 1000000000000) with (log_q1 f) in q1.
    pose proof (nb_mul f K _ _ _ _ _ _ _ _ HE q1 eq_refl) as H1. norm H1. addr K HP H1. clear H1 q1.
    litc f K 1%Z 2%Z hf. change (lit f 1 2) with (c_0p5 f) in hf.
    pose proof (nb_mul f K _ _ _ _ _ _ _ _ HZ hf eq_refl) as H2. norm H2.
    pose proof (nb_sub f K _ _ _ _ _ _ _ _ HP H2 eq_refl) as H3. norm H3. clear H2 HP hf HZ.
    pose proof (nb_add f K _ _ _ _ _ _ _ _ HX H3 eq_refl) as H4. norm H4. clear H3.
    set (s := f_add f x _) in *. destruct H4 as (Fs & Es & Bs).
    set (t := f_mul f e (log_q2 f)) in *. clearbody s t.
    assert (E1 : (Rabs (real f s + real f t - L) <= 2453 / 10000000000)%R).
    { pose proof (ln_close X ltac:(lra)) as LC. rewrite <- kpoly_ln in LC. pose proof ln2c_close as L2. unfold ln2c in L2.
      assert (Q : (Rabs (IZR n * (ln 2 - (693359375 / 1000000000 - 212194440 / 1000000000000))) <= 2047 * (1 / 10000000000000))%R) by (rewrite Rabs_mult; apply Rmult_le_compat; auto using Rabs_pos).
      assert (Es' : (Rabs (real f s - (X + (kpoly X * X * (X * X) + IZR n * (-212194440 / 1000000000000) - X * X * (1 / 2)))) <= 1989 / 10000000000)%R) by (eapply Rle_trans; [exact Es|scl]).
      apply Rabs_le3 in Es', LC, Q. rewrite R2. unfold L. set (kp := (kpoly X * X * (X * X))%R) in *. set (xx := (X * X * (1 / 2))%R) in *. set (l := ln (1 + X)) in *. set (l2 := ln 2) in *.
      assert (XB : (0 <= Rabs X <= 41422 / 100000)%R) by (split; [apply Rabs_pos|exact Bx']). set (ax := Rabs X) in *. clearbody ax kp xx l l2. apply le_Rabs. nra. }
    assert (LB : (Rabs L <= 1500)%R).
    { pose proof (ln_close X ltac:(lra)) as LC. pose proof ln2_bounds as L2. unfold ln2_lo, ln2_hi in L2.
      assert (LN : (Rabs (ln (1 + X)) <= 1)%R).
      { apply le_Rabs. split.
        - apply Rle_trans with (- ln (exp 1))%R; [rewrite ln_exp; lra|]. rewrite <- ln_Rinv by apply exp_pos. left. apply ln_increasing; [apply Rinv_0_lt_compat, exp_pos|].
          assert (2 <= exp 1)%R by (pose proof (exp_ineq1_le 1); lra). apply Rle_lt_trans with (/ 2)%R; [apply Rinv_le_contravar; lra|lra].
        - apply Rle_trans with (ln (exp 1))%R; [|rewrite ln_exp; lra]. left. apply ln_increasing; [lra|]. pose proof (exp_ineq1_le 1). lra. }
      unfold L. eapply Rle_trans; [apply Rabs_triang|]. rewrite Rabs_mult, (Rabs_pos_eq (ln 2)) by lra. pose proof (Rabs_pos (IZR n)). nra. }
    pose proof (Rabs_le3 _ _ E1) as E1'. pose proof (Rabs_le3 _ _ LB) as LB'.
    destruct (r_add f K s t Fs F2) as [A E]; [apply Rle_trans with (IZR 2000); [apply le_Rabs; lra|apply IZR_le; vm_compute; discriminate]|].
    split; [exact A|]. change (IZR (2 ^ 24)) with 16777216%R in E.
    assert (SB : (Rabs (real f s + real f t) <= Rabs L + 2453 / 10000000000)%R).
    { replace (real f s + real f t)%R with (L + (real f s + real f t - L))%R by ring. eapply Rle_trans; [apply Rabs_triang|]. lra. }
    replace (real f (f_add f s t) - L)%R with ((real f (f_add f s t) - (real f s + real f t)) + (real f s + real f t - L))%R by ring.
    eapply Rle_trans; [apply Rabs_triang|]. pose proof (Rabs_pos L). lra.
  Qed.
  (** products and sums with errors that are real expressions *)
  Lemma mul_rel t x y v w ex ey A B : (/ IZR (2 ^ 126) <= t)%R -> fin f x -> fin f y -> (Rabs (real f x - v) <= ex)%R -> (Rabs (real f y - w) <= ey)%R -> (Rabs v <= A)%R -> (Rabs w <= B)%R -> ((A + ex) * (B + ey) <= 1000)%R ->
    fin f (f_mul f x y) /\ (Rabs (real f (f_mul f x y) - v * w) <= ex * B + ey * A + ex * ey + ((A + ex) * (B + ey) + t) / 16777216)%R /\ (Rabs (v * w) <= A * B)%R.
  Proof.
    intros Ht Fx Fy Ex Ey Av Bw C. set (u := (/ IZR (2 ^ 126))%R) in *.
    assert (S : (Rabs (real f x * real f y) <= (A + ex) * (B + ey))%R).
    { rewrite Rabs_mult. apply Rmult_le_compat; try apply Rabs_pos.
      - replace (real f x) with (v + (real f x - v))%R by ring. eapply Rle_trans; [apply Rabs_triang|]. lra.
      - replace (real f y) with (w + (real f y - w))%R by ring. eapply Rle_trans; [apply Rabs_triang|]. lra. }
    destruct (r_mul f K x y Fx Fy) as [F E]; [apply Rle_trans with 1000%R; [lra|apply IZR_le; vm_compute; discriminate]|]. fold u in E. change (IZR (2 ^ 24)) with 16777216%R in E.
    split; [exact F|]. split; [|rewrite Rabs_mult; apply Rmult_le_compat; auto using Rabs_pos].
    replace (real f (f_mul f x y) - v * w)%R with ((real f (f_mul f x y) - real f x * real f y) + ((real f x - v) * w + (real f y - w) * v + (real f x - v) * (real f y - w)))%R by ring.
    eapply Rle_trans; [apply Rabs_triang|]. assert (T : (Rabs ((real f x - v) * w + (real f y - w) * v + (real f x - v) * (real f y - w)) <= ex * B + ey * A + ex * ey)%R).
    { eapply Rle_trans; [apply Rabs_triang|]. apply Rplus_le_compat; [eapply Rle_trans; [apply Rabs_triang|]; apply Rplus_le_compat|]; rewrite Rabs_mult; apply Rmult_le_compat; auto using Rabs_pos. }
    lra.
  Qed.
  Lemma add_rel x y v w ex ey A : fin f x -> fin f y -> (Rabs (real f x - v) <= ex)%R -> (Rabs (real f y - w) <= ey)%R -> (Rabs (v + w) <= A)%R -> (A + ex + ey <= 1000)%R ->
    fin f (f_add f x y) /\ (Rabs (real f (f_add f x y) - (v + w)) <= ex + ey + (A + ex + ey) / 16777216)%R.
  Proof.
    intros Fx Fy Ex Ey Av C. assert (S : (Rabs (real f x + real f y) <= A + ex + ey)%R).
    { replace (real f x + real f y)%R with ((v + w) + ((real f x - v) + (real f y - w)))%R by ring. eapply Rle_trans; [apply Rabs_triang|]. eapply Rle_trans; [apply Rplus_le_compat_l, Rabs_triang|]. lra. }
    destruct (r_add f K x y Fx Fy) as [F E]; [apply Rle_trans with 1000%R; [lra|apply IZR_le; vm_compute; discriminate]|]. change (IZR (2 ^ 24)) with 16777216%R in E.
    split; [exact F|]. replace (real f (f_add f x y) - (v + w))%R with ((real f (f_add f x y) - (real f x + real f y)) + ((real f x - v) + (real f y - w)))%R by ring.
    eapply Rle_trans; [apply Rabs_triang|]. eapply Rle_trans; [apply Rplus_le_compat_l, Rabs_triang|]. lra.
  Qed.
  Lemma sub_rel x y v w ex ey A : fin f x -> fin f y -> (Rabs (real f x - v) <= ex)%R -> (Rabs (real f y - w) <= ey)%R -> (Rabs (v - w) <= A)%R -> (A + ex + ey <= 1000)%R ->
    fin f (f_sub f x y) /\ (Rabs (real f (f_sub f x y) - (v - w)) <= ex + ey + (A + ex + ey) / 16777216)%R.
  Proof.
    intros Fx Fy Ex Ey Av C. unfold f_sub. destruct (r_flip f K y Fy) as [FF RF]. apply (add_rel x (f_flip f y) v (- w)); try assumption. rewrite RF. replace (- real f y - - w)%R with (- (real f y - w))%R by ring. now rewrite Rabs_Ropp.
  Qed.
  Lemma zero_mul e c : is_int f e 0 -> fin f c -> fin f (f_mul f e c) /\ real f (f_mul f e c) = 0%R.
  Proof.
    intros [Fe Ve] Fc. destruct (uv f K) as [U1 U2]. destruct (inf_bound f K) as [[I1 I2] _].
    destruct (mul_exact f K e c 0 Fe Fc ltac:(lia)) as [A V]; [rewrite (mv_0 f K), Ve; reflexivity|]. split; [exact A|]. unfold real. replace (fval f (f_mul f e c)) with 0%Z by nia. unfold Rdiv. now rewrite Rmult_0_l.
  Qed.
  Lemma log_tail_rel x e : fin f x -> (-293 / 1000 <= real f x <= 41422 / 100000)%R -> is_int f e 0 -> (/ IZR (2 ^ 24) <= Rabs (real f x))%R -> let r := log_tail f x e in
    fin f r /\ (Rabs (real f r - ln (1 + real f x)) <= 4 / 10000000 * Rabs (real f x))%R.
  Proof.
    intros Fx Bx He Ax r. assert (Bx' : (Rabs (real f x) <= 41422 / 100000)%R) by (apply le_Rabs; lra).
    destruct (log_horner x Fx Bx') as (Fh & Eh & Bh).
    assert (Eh' : (Rabs (real f (horner f x (log_p0 f) (log_ps f)) - kpoly (real f x)) <= 91 / 1000000000)%R) by (eapply Rle_trans; [exact Eh|]; change (up 9 100000000) with (ltac:(let z := eval vm_compute in (up 9 100000000) in exact z)); scl).
    assert (Bh' : (Rabs (kpoly (real f x)) <= 501 / 1000)%R) by (eapply Rle_trans; [exact Bh|]; change (up 5 10) with (ltac:(let z := eval vm_compute in (up 5 10) in exact z)); scl). clear Eh Bh.
    assert (FQ : fin f (log_q1 f) /\ fin f (log_q2 f)) by (split; apply (fin_of_val f K); destruct K as [-> | ->]; vm_compute; try split; congruence). destruct FQ as [FQ1 FQ2].
    destruct (zero_mul e _ He FQ1) as [F1 R1]. destruct (zero_mul e _ He FQ2) as [F2 R2].
    assert (HF : fin f (c_0p5 f) /\ real f (c_0p5 f) = (1 / 2)%R).
    { split; [apply (fin_of_val f K); destruct K as [-> | ->]; vm_compute; try split; congruence|]. pose proof (o_pos f K). assert (V : (2 * fval f (c_0p5 f) = one_val f)%Z) by (destruct K as [-> | ->]; vm_compute; reflexivity). apply IZR_eq in V. rewrite mult_IZR, (fval_real f K) in V. set (o := IZR (one_val f)) in *. nra. }
    destruct HF as [Fp Rp].
    pose proof (ln_close (real f x) ltac:(lra)) as LC. rewrite <- kpoly_ln in LC.
    unfold r, log_tail. cbv zeta. set (h := horner f x (log_p0 f) (log_ps f)) in *. clearbody h. set (X := real f x) in *. set (k := kpoly X) in *. clearbody k. set (a := Rabs X) in *.
    assert (XX : (Rabs (real f x - X) <= 0)%R) by (unfold X; rewrite Rminus_diag_eq, Rabs_R0 by reflexivity; lra).
    assert (UU : (0 < / IZR (2 ^ 126) <= 1 / 1000000000000 * a)%R).
    { split; [apply Rinv_0_lt_compat, IZR_lt; reflexivity|]. apply Rle_trans with (1 / 1000000000000 * / IZR (2 ^ 24))%R; [|apply Rmult_le_compat_l; lra]. change (IZR (2 ^ 24)) with 16777216%R.
      change (IZR (2 ^ 126)) with 85070591730234615865843651857942052864%R. lra. }
    assert (A0 : (0 < a)%R) by (change (IZR (2 ^ 24)) with 16777216%R in Ax; lra). destruct UU as [_ UU].
    destruct (mul_rel _ x x X X 0 0 a (41422 / 100000) UU Fx Fx XX XX (Rle_refl _) Bx' ltac:(nra)) as (Fz & Ez & Bz). set (z := f_mul f x x) in *. clearbody z.
    destruct (mul_rel _ h x k X (91 / 1000000000) 0 (501 / 1000) a UU Fh Fx Eh' XX Bh' (Rle_refl _) ltac:(nra)) as (Fy1 & Ey1 & By1). set (y1 := f_mul f h x) in *. clearbody y1.
    assert (Ez1 : (Rabs (real f z - X * X) <= 25 / 1000000000 * a)%R) by (eapply Rle_trans; [exact Ez|lra]).
    assert (Ez2 : (Rabs (real f z - X * X) <= 11 / 1000000000)%R) by (eapply Rle_trans; [exact Ez|lra]).
    assert (Bz2 : (Rabs (X * X) <= 1716 / 10000)%R) by (eapply Rle_trans; [exact Bz|lra]).
    assert (Ey1' : (Rabs (real f y1 - k * X) <= 122 / 1000000000 * a)%R) by (eapply Rle_trans; [exact Ey1|lra]). clear Ey1 Ez.
    destruct (mul_rel _ y1 z (k * X) (X * X) (122 / 1000000000 * a) (11 / 1000000000) (501 / 1000 * a) (1716 / 10000) UU Fy1 Fz Ey1' Ez2 By1 Bz2 ltac:(nra)) as (Fy2 & Ey2 & By2). set (y2 := f_mul f y1 z) in *. clearbody y2.
    assert (Ey2' : (Rabs (real f y2 - k * X * (X * X)) <= 32 / 1000000000 * a)%R) by (eapply Rle_trans; [exact Ey2|nra]). clear Ey2.
    assert (Z1 : (Rabs (real f (f_mul f e (log_q1 f)) - 0) <= 0)%R) by (rewrite R1, Rminus_0_r, Rabs_R0; lra). assert (Z2 : (Rabs (real f (f_mul f e (log_q2 f)) - 0) <= 0)%R) by (rewrite R2, Rminus_0_r, Rabs_R0; lra).
    destruct (add_rel y2 _ _ 0 _ 0 (86 / 1000 * a) Fy2 F1 Ey2' Z1 ltac:(rewrite Rplus_0_r; lra) ltac:(lra)) as [Fy3 Ey3]. rewrite Rplus_0_r in Ey3. set (y3 := f_add f y2 _) in *. clearbody y3.
    assert (Ep : (Rabs (real f (c_0p5 f) - 1 / 2) <= 0)%R) by (rewrite Rp, Rminus_diag_eq, Rabs_R0 by reflexivity; lra). assert (Bp : (Rabs (1 / 2) <= 1 / 2)%R) by (rewrite Rabs_pos_eq; lra).
    destruct (mul_rel _ z (c_0p5 f) (X * X) (1 / 2) (25 / 1000000000 * a) 0 (a * (41422 / 100000)) (1 / 2) UU Fz Fp Ez1 Ep Bz Bp ltac:(nra)) as (Fz2 & Ezh & Bzh). set (zh := f_mul f z (c_0p5 f)) in *. clearbody zh.
    destruct (sub_rel y3 zh _ _ _ _ (3 / 10 * a) Fy3 Fz2 Ey3 Ezh) as [Fy4 Ey4].
    { eapply Rle_trans; [apply Rabs_triang|]. rewrite Rabs_Ropp. lra. }
    { lra. }
    set (y4 := f_sub f y3 zh) in *. clearbody y4.
    assert (B1 : (Rabs (X + (k * X * (X * X) - X * X * (1 / 2))) <= 13 / 10 * a)%R).
    { eapply Rle_trans; [apply Rabs_triang|]. fold a. assert (Rabs (k * X * (X * X) - X * X * (1 / 2)) <= 3 / 10 * a)%R by (eapply Rle_trans; [apply Rabs_triang|]; rewrite Rabs_Ropp; lra). lra. }
    destruct (add_rel x y4 X _ 0 _ (13 / 10 * a) Fx Fy4 XX Ey4 B1 ltac:(lra)) as [Fs Es]. set (s := f_add f x y4) in *. clearbody s.
    destruct (add_rel s _ _ 0 _ 0 (13 / 10 * a) Fs F2 Es Z2 ltac:(rewrite Rplus_0_r; exact B1) ltac:(lra)) as [Fr Er]. rewrite Rplus_0_r in Er.
    split; [exact Fr|]. set (q := (X + (k * X * (X * X) - X * X * (1 / 2)))%R) in *. set (rr := real f (f_add f s _)) in *.
    replace (rr - ln (1 + X))%R with ((rr - q) + (q - ln (1 + X)))%R by ring. eapply Rle_trans; [apply Rabs_triang|]. lra.
  Qed.
End LogTail.

Lemma ln_below y : (0 < y -> ln y <= y - 1)%R.
Proof. intros H. pose proof (exp_ineq1_le (ln y)) as E. rewrite exp_ln in E by exact H. lra. Qed.
Lemma ln_size X : (-293 / 1000 <= X <= 41422 / 100000)%R -> (7 / 10 * Rabs X <= Rabs (ln (1 + X)))%R.
Proof.
  intros B. pose proof (ln_below (1 + X) ltac:(lra)) as U. destruct (Rle_lt_dec X 0) as [N|Ps].
  - rewrite (Rabs_left1 X), (Rabs_left1 (ln (1 + X))) by lra. lra.
  - assert (L : (X / (1 + X) <= ln (1 + X))%R).
    { pose proof (ln_below (/ (1 + X)) ltac:(apply Rinv_0_lt_compat; lra)) as V. rewrite ln_Rinv in V by lra. replace (X / (1 + X))%R with (1 - / (1 + X))%R by (field; lra). lra. }
    assert (L2 : (7 / 10 * X <= X / (1 + X))%R).
    { apply Rmult_le_reg_r with (1 + X)%R; [lra|]. replace (X / (1 + X) * (1 + X))%R with X by (field; lra). nra. }
    rewrite (Rabs_pos_eq X), (Rabs_pos_eq (ln (1 + X))) by lra. lra.
Qed.
Lemma ln_span X : (-293 / 1000 <= X <= 41422 / 100000)%R -> (Rabs (ln (1 + X)) <= 3468 / 10000)%R.
Proof.
  intros B. pose proof ln2_bounds as L2. unfold ln2_lo, ln2_hi in L2. assert (S : (ln ((1 + X) * (1 + X)) = 2 * ln (1 + X))%R) by (rewrite ln_mult by lra; ring).
  apply le_Rabs. split.
  - pose proof (ln_below (/ (2 * ((1 + X) * (1 + X)))) ltac:(apply Rinv_0_lt_compat; nra)) as V. rewrite ln_Rinv, ln_mult, S in V by nra.
    assert (Q : (/ (2 * ((1 + X) * (1 + X))) <= 10004 / 10000)%R).
    { replace (10004 / 10000)%R with (/ (10000 / 10004))%R by field. apply Rinv_le_contravar; [lra|]. nra. }
    lra.
  - pose proof (ln_below ((1 + X) * (1 + X) / 2) ltac:(nra)) as V. unfold Rdiv in V. rewrite ln_mult, ln_Rinv, S in V by nra. nra.
Qed.
Lemma min_norm_real f x : known f -> (real f (c_min_norm_pos f) <= real f x)%R -> (fval f (c_min_norm_pos f) <= fval f x)%Z.
Proof. intros K. apply (real_le f K). Qed.
Lemma min_norm_FLT : real FLT (c_min_norm_pos FLT) = (/ IZR (2 ^ 126))%R.
Proof.
  assert (K : known FLT) by now left. pose proof (o_pos FLT K) as OP. assert (V : (2 ^ 126 * fval FLT (c_min_norm_pos FLT) = one_val FLT)%Z) by (vm_compute; reflexivity). apply IZR_eq in V. rewrite mult_IZR, (fval_real FLT K) in V.
  assert (T : (0 < IZR (2 ^ 126))%R) by (apply IZR_lt; reflexivity). set (o := IZR (one_val FLT)) in *. set (t := IZR (2 ^ 126)) in *. clearbody o t. apply Rmult_eq_reg_r with (t * o)%R; [|nra]. replace (/ t * (t * o))%R with o by (field; lra). rewrite <- V at 2. ring.
Qed.
Lemma min_norm_DBL : real DBL (c_min_norm_pos DBL) = (/ IZR (2 ^ 1022))%R.
Proof.
  assert (K : known DBL) by now right. pose proof (o_pos DBL K) as OP. assert (V : (2 ^ 1022 * fval DBL (c_min_norm_pos DBL) = one_val DBL)%Z) by (vm_compute; reflexivity). apply IZR_eq in V. rewrite mult_IZR, (fval_real DBL K) in V.
  assert (T : (0 < IZR (2 ^ 1022))%R) by (apply IZR_lt; reflexivity). set (o := IZR (one_val DBL)) in *. set (t := IZR (2 ^ 1022)) in *. clearbody o t. apply Rmult_eq_reg_r with (t * o)%R; [|nra]. replace (/ t * (t * o))%R with o by (field; lra). rewrite <- V at 2. ring.
Qed.
Lemma log32 x : fin FLT x -> (/ IZR (2 ^ 126) <= real FLT x)%R -> let r := log256 FLT x in fin FLT r /\ (Rabs (real FLT r - ln (real FLT x)) <= 1 / 1000000 * Rabs (ln (real FLT x)))%R.
Proof.
  intros Fx Nx r. assert (K : known FLT) by now left. rewrite <- min_norm_FLT in Nx. apply (min_norm_real FLT x K) in Nx.
  destruct (log_reduce FLT K x Fx Nx) as (k & xx & e & E & Ie & Hn & Fxx & LX & BX & h & Hh). replace (k + (bias FLT - c_0x7f FLT))%Z with k in Ie, Hn by (change (bias FLT) with 127%Z; change (c_0x7f FLT) with 127%Z; ring).
  unfold r. rewrite E, LX. clear r. change (c_0x7f FLT) with 127%Z in Hn.
  destruct (Z.eq_dec k 0) as [->|Nk].
  - rewrite Rmult_0_l, Rplus_0_l in *. destruct (Z.eq_dec h 0) as [->|Nh].
    + assert (X0 : real FLT xx = 0%R) by (change (IZR (2 * 2 ^ fbits FLT)) with 16777216%R in Hh; lra). rewrite X0, Rplus_0_r, ln_1 in *.
      pose proof (o_pos FLT K) as OP. destruct (uv FLT K) as [U1 U2].
      assert (RX : (0 < real FLT x)%R). { assert (V : (0 < fval FLT x)%Z) by (assert (0 < fval FLT (c_min_norm_pos FLT))%Z by (vm_compute; reflexivity); lia). apply IZR_lt in V. rewrite (fval_real FLT K) in V. set (o := IZR (one_val FLT)) in *. nra. }
      assert (X1 : real FLT x = 1%R) by (rewrite <- (exp_ln (real FLT x) RX), LX; apply exp_0).
      assert (XE : x = c_one FLT).
      { destruct (int_one FLT K) as [Fo Vo]. apply (pat_unique FLT K); [apply Fx|apply Fo| |]; (assert (V : fval FLT x = one_val FLT) by (apply eq_IZR; rewrite (fval_real FLT K), X1; ring); rewrite V); [rewrite Vo; ring|lia]. }
      rewrite <- E, XE. replace (log256 FLT (c_one FLT)) with 0%Z by (vm_compute; reflexivity). destruct (int_zero FLT K) as [F0 V0]. split; [exact F0|].
      replace (real FLT 0) with 0%R by (unfold real; rewrite V0, Z.mul_0_l; unfold Rdiv; ring). rewrite Rminus_0_r, Rabs_R0. lra.
    + assert (AX : (/ IZR (2 ^ 24) <= Rabs (real FLT xx))%R).
      { change (IZR (2 * 2 ^ fbits FLT)) with 16777216%R in Hh. change (IZR (2 ^ 24)) with 16777216%R. assert (A : (1 <= Rabs (IZR h))%R) by (rewrite <- abs_IZR; apply IZR_le; lia). rewrite <- Hh, Rabs_mult, (Rabs_pos_eq 16777216) in A by lra. lra. }
      destruct (log_tail_rel FLT K xx e Fxx BX Ie AX) as [Fr Er]. split; [exact Fr|]. pose proof (ln_size _ BX). pose proof (Rabs_pos (real FLT xx)). lra.
  - destruct (log_tail_abs FLT K xx e k Fxx BX Ie ltac:(lia)) as [Fr Er]. split; [exact Fr|]. eapply Rle_trans; [exact Er|].
    pose proof (ln_span _ BX) as LS. pose proof ln2_bounds as L2. unfold ln2_lo, ln2_hi in L2. set (L := (IZR k * ln 2 + ln (1 + real FLT xx))%R) in *.
    assert (LL : (3463 / 10000 <= Rabs L)%R).
    { assert (A : (69314 / 100000 <= Rabs (IZR k * ln 2))%R) by (rewrite Rabs_mult, (Rabs_pos_eq (ln 2)) by lra; assert (1 <= Rabs (IZR k))%R by (rewrite <- abs_IZR; apply IZR_le; lia); nra).
      pose proof (Rabs_triang_inv (IZR k * ln 2) (- ln (1 + real FLT xx))) as T. rewrite Rabs_Ropp in T. unfold Rminus in T at 2. rewrite Ropp_involutive in T. fold L in T. lra. }
    lra.
Qed.
Lemma log64 x : fin DBL x -> (/ IZR (2 ^ 1022) <= real DBL x)%R -> let r := log256 DBL x in fin DBL r /\ (Rabs (real DBL r - (ln (real DBL x) - 1023 * ln 2)) <= 1 / 10000)%R.
Proof.
  intros Fx Nx r. assert (K : known DBL) by now right. rewrite <- min_norm_DBL in Nx. apply (min_norm_real DBL x K) in Nx.
  destruct (log_reduce DBL K x Fx Nx) as (k & xx & e & E & Ie & Hn & Fxx & LX & BX & h & Hh). replace (k + (bias DBL - c_0x7f DBL))%Z with (k - 1023)%Z in Ie, Hn by (change (bias DBL) with 1023%Z; change (c_0x7f DBL) with 2046%Z; ring).
  unfold r. rewrite E, LX. clear r. change (c_0x7f DBL) with 2046%Z in Hn.
  destruct (log_tail_abs DBL K xx e (k - 1023) Fxx BX Ie ltac:(lia)) as [Fr Er]. split; [exact Fr|].
  replace (IZR k * ln 2 + ln (1 + real DBL xx) - 1023 * ln 2)%R with (IZR (k - 1023) * ln 2 + ln (1 + real DBL xx))%R by (rewrite minus_IZR; ring).
  eapply Rle_trans; [exact Er|]. pose proof (ln_span _ BX) as LS. pose proof ln2_bounds as L2. unfold ln2_lo, ln2_hi in L2.
  assert (A : (Rabs (IZR (k - 1023) * ln 2) <= 1419)%R) by (rewrite Rabs_mult, (Rabs_pos_eq (ln 2)) by lra; assert (Rabs (IZR (k - 1023)) <= 2047)%R by (rewrite <- abs_IZR; apply IZR_le; lia); nra).
  pose proof (Rabs_triang (IZR (k - 1023) * ln 2) (ln (1 + real DBL xx))). lra.
Qed.

(** ---------- C60 ---------- *)
(** The property: np.log's answer for a positive element x is close to ln x.  Missing for float32: subnormals (refuted
    below) and the elements left to the scalar loop, which are libm's. *)
Theorem C60_float32_partial : forall libm numpy a out n m i,
  scalar_fun FLT libm -> contiguous FLT a out n m -> in_groups FLT n i ->
  let x := elem FLT m a i in
  let r := elem FLT (TrigCall LOG FLT libm numpy a out n (fsize FLT) (fsize FLT) m) out i in
  fin FLT x -> (/ IZR (2 ^ 126) <= real FLT x)%R ->
  fin FLT r /\ (Rabs (real FLT r - ln (real FLT x)) <= 1 / 1000000 * Rabs (ln (real FLT x)))%R.
Proof.
  intros libm numpy a out n m i Hl C G x r Fx B. unfold r. rewrite (body_answer LOG FLT (log256 FLT) libm numpy a out n m i (or_introl eq_refl) eq_refl Hl C G). now apply log32.
Qed.
(** C60 is false for float32 subnormals: the answer is that of 2^-126, more than 2 off from 2^-130 down *)
Theorem C60_float32_subnormal_refuted : forall libm numpy a out n m i,
  scalar_fun FLT libm -> contiguous FLT a out n m -> in_groups FLT n i ->
  let x := elem FLT m a i in
  let r := elem FLT (TrigCall LOG FLT libm numpy a out n (fsize FLT) (fsize FLT) m) out i in
  fin FLT x -> (0 < real FLT x <= / IZR (2 ^ 130))%R ->
  fin FLT r /\ (2 <= Rabs (real FLT r - ln (real FLT x)))%R.
Proof.
  intros libm numpy a out n m i Hl C G x r Fx B. assert (K : known FLT) by now left. unfold r. rewrite (body_answer LOG FLT (log256 FLT) libm numpy a out n m i K eq_refl Hl C G). fold x.
  assert (T : (0 < IZR (2 ^ 126))%R) by (apply IZR_lt; reflexivity). pose proof (o_pos FLT K) as OP.
  assert (S : (/ IZR (2 ^ 130) <= / IZR (2 ^ 126))%R) by (apply Rinv_le_contravar; [exact T|apply IZR_le; vm_compute; discriminate]).
  rewrite (log_small FLT x K); [|right; split; [apply lt_IZR; rewrite (fval_real FLT K); apply Rmult_lt_0_compat; lra|apply (real_le FLT K); rewrite min_norm_FLT; lra]].
  assert (FM : fin FLT (c_min_norm_pos FLT)) by (apply (fin_of_val FLT K); vm_compute; try split; congruence).
  destruct (log32 _ FM ltac:(rewrite min_norm_FLT; lra)) as [Fr Er]. rewrite (log_bot_is FLT K) in Fr, Er. split; [exact Fr|].
  assert (LM : ln (real FLT (c_min_norm_pos FLT)) = (- (IZR 126 * ln 2))%R) by (rewrite min_norm_FLT, ln_Rinv, exp_two, ln_exp by (exact T || lia); reflexivity). rewrite LM, Rabs_Ropp in Er. pose proof ln2_bounds as L2. unfold ln2_lo, ln2_hi in L2. rewrite (Rabs_pos_eq (IZR 126 * ln 2)) in Er by lra. apply Rabs_le3 in Er.
  assert (LX : (ln (real FLT x) <= - (IZR 130 * ln 2))%R).
  { rewrite <- (ln_exp (IZR 130 * ln 2)), <- exp_two by lia. rewrite <- ln_Rinv by (apply IZR_lt; reflexivity). destruct (Rle_lt_or_eq_dec _ _ (proj2 B)) as [Q|Q]; [left; apply ln_increasing; lra|right; now rewrite Q]. }
  rewrite Rabs_pos_eq by lra. lra.
Qed.
(** C60 is false for every normal positive float64: the answer is ln x - 1023 ln 2 *)
Theorem C60_float64_refuted : forall libm numpy a out n m i,
  scalar_fun DBL libm -> contiguous DBL a out n m -> in_groups DBL n i ->
  let x := elem DBL m a i in
  let r := elem DBL (TrigCall LOG DBL libm numpy a out n (fsize DBL) (fsize DBL) m) out i in
  fin DBL x -> (/ IZR (2 ^ 1022) <= real DBL x)%R ->
  fin DBL r /\ (Rabs (real DBL r - (ln (real DBL x) - 1023 * ln 2)) <= 1 / 10000)%R /\ (709 <= Rabs (real DBL r - ln (real DBL x)))%R.
Proof.
  intros libm numpy a out n m i Hl C G x r Fx B. unfold r. rewrite (body_answer LOG DBL (log256 DBL) libm numpy a out n m i (or_intror eq_refl) eq_refl Hl C G). fold x.
  destruct (log64 x Fx B) as [Fr Er]. split; [exact Fr|]. split; [exact Er|]. apply Rabs_le3 in Er. pose proof ln2_bounds as L2. unfold ln2_lo, ln2_hi in L2. rewrite Rabs_left1 by lra. lra.
Qed.
Print Assumptions C60_float32_partial.
Print Assumptions C60_float64_refuted.
(** hypotheses: arrays of nine equal numbers: float32 3 and the subnormal 2^-140, float64 3 *)
Example C60_nonvacuous : scalar_fun FLT (fun x => x) /\ scalar_fun DBL (fun x => x) /\
  (let ok p := contiguous FLT 4096 8192 9 (cells 4 p) /\ in_groups FLT 9 3 /\ elem FLT (cells 4 p) 4096 3 = p /\ fin FLT p in
   ok 1077936128 /\ real FLT 1077936128 = (3 / 1)%R /\ ok 512 /\ real FLT 512 = (1 / IZR (2 ^ 140))%R) /\
  (contiguous DBL 4096 8192 9 (cells 8 4613937818241073152) /\ in_groups DBL 9 3 /\ elem DBL (cells 8 4613937818241073152) 4096 3 = 4613937818241073152 /\ fin DBL 4613937818241073152 /\
   real DBL 4613937818241073152 = (3 / 1)%R).
Proof.
  assert (KF : known FLT) by now left. assert (KD : known DBL) by now right.
  assert (OKF : forall p, elem FLT (cells 4 p) 4096 3 = p -> fin FLT p -> contiguous FLT 4096 8192 9 (cells 4 p) /\ in_groups FLT 9 3 /\ elem FLT (cells 4 p) 4096 3 = p /\ fin FLT p) by (intros p E F; destruct (cells_ok FLT p KF); auto).
  split; [intros x H; exact H|]. split; [intros x H; exact H|]. cbv zeta. split.
  - split; [apply OKF; [vm_compute; reflexivity|apply (fin_of_val FLT KF); [vm_compute; split; congruence|vm_compute; discriminate]]|].
    split; [apply real_is; [exact KF|reflexivity|vm_compute; reflexivity]|].
    split; [apply OKF; [vm_compute; reflexivity|apply (fin_of_val FLT KF); [vm_compute; split; congruence|vm_compute; discriminate]]|].
    apply real_is; [exact KF|reflexivity|vm_compute; reflexivity].
  - destruct (cells_ok DBL 4613937818241073152 KD) as [A B]. split; [exact A|]. split; [exact B|]. split; [vm_compute; reflexivity|]. split; [apply (fin_of_val DBL KD); [vm_compute; split; congruence|vm_compute; discriminate]|].
    apply real_is; [exact KD|reflexivity|vm_compute; reflexivity].
Qed.
