(** Trig_SinCos.v - how close np.sin and np.cos come to sin x and cos x (C63): selection of the polynomial, sign, quadrants. *)
From Coq Require Import Reals Lra.
From Verif Require Import Base Kernel_Model Kernel_Proofs Kernel_Props Float_Model Compare_Model Compare_Proofs Compare_Props Unary_Model Unary_Proofs Unary_Props UnaryVal_Props Round_Model Round_Props Arith_Model Arith_Props Trig_Model Trig_Props Exp_Bounds Log_Bounds Sin_Bounds Trig_Real Trig_Near Trig_Exp Trig_Log Trig_Sin.

Lemma sin_lip a b : (Rabs (sin a - sin b) <= Rabs (a - b))%R.
Proof.
  assert (H : forall a b, (a < b -> Rabs (sin b - sin a) <= b - a)%R).
  { intros u v L. destruct (MVT_cor2 sin cos u v L) as (c & E & _); [intros; apply derivable_pt_lim_sin|]. rewrite E, Rabs_mult, (Rabs_pos_eq (v - u)) by lra.
    assert (Rabs (cos c) <= 1)%R by (apply Rabs_le, COS_bound). nra. }
  destruct (Rtotal_order a b) as [L|[-> |L]].
  - rewrite (Rabs_minus_sym (sin a)), (Rabs_left1 (a - b)) by lra. specialize (H a b L). lra.
  - rewrite !Rminus_diag_eq by reflexivity. lra.
  - rewrite (Rabs_pos_eq (a - b)) by lra. exact (H b a L).
Qed.
Lemma cos_lip a b : (Rabs (cos a - cos b) <= Rabs (a - b))%R.
Proof. rewrite <- !sin_shift. eapply Rle_trans; [apply sin_lip|]. right. replace (PI / 2 - a - (PI / 2 - b))%R with (- (a - b))%R by ring. apply Rabs_Ropp. Qed.

Definition sgn (b : bool) : R := if b then (-1)%R else 1%R.
Section Select.
  Variable f : fmt.
  Hypothesis K : known f.
  Lemma land_ones_id x : inr f x -> Z.land (ones f) x = x.
  Proof. intros H. unfold ones. replace (2 ^ fwidth f - 1)%Z with (Z.ones (fwidth f)) by (rewrite Z.ones_equiv; lia). rewrite Z.land_comm, Z.land_ones by (pose proof (fw_pos f K); lia). apply Z.mod_small. exact H. Qed.
  Lemma add_zero_l x : fin f x -> fin f (f_add f 0 x) /\ real f (f_add f 0 x) = real f x.
  Proof.
    intros F. destruct (int_zero f K) as [F0 V0]. destruct (fin_mag f K x F) as (M & _).
    destruct (add_exact f K 0 x (fmag f x) F0 F M) as [A V]; [rewrite V0, Z.mul_0_l, Z.add_0_l, (abs_fval f K), (mv_mag f); reflexivity|]. split; [exact A|]. unfold real. now rewrite V, V0, Z.mul_0_l, Z.add_0_l.
  Qed.
  Lemma add_zero_r x : fin f x -> fin f (f_add f x 0) /\ real f (f_add f x 0) = real f x.
  Proof.
    intros F. destruct (int_zero f K) as [F0 V0]. destruct (fin_mag f K x F) as (M & _).
    destruct (add_exact f K x 0 (fmag f x) F F0 M) as [A V]; [rewrite V0, Z.mul_0_l, Z.add_0_r, (abs_fval f K), (mv_mag f); reflexivity|]. split; [exact A|]. unfold real. now rewrite V, V0, Z.mul_0_l, Z.add_0_r.
  Qed.
  Lemma signed_ok y (neg : bool) : fin f y -> let r := Z.lxor y (if neg then c_sign_mask f else 0) in fin f r /\ real f r = (sgn neg * real f y)%R.
  Proof.
    intros F r. destruct neg; unfold r, sgn.
    - replace (c_sign_mask f) with (2 ^ (fwidth f - 1))%Z by (destruct K as [-> | ->]; reflexivity). destruct (r_flip f K y F) as [A E]. split; [exact A|]. change (Z.lxor y (2 ^ (fwidth f - 1))) with (f_flip f y). rewrite E. ring.
    - rewrite Z.lxor_0_r. split; [exact F|ring].
  Qed.
  Lemma selected_ok x (b neg : bool) : fin f x -> (Rabs (real f x) <= 1183 / 1000)%R -> let r := selected f x (mask f b) (if neg then c_sign_mask f else 0) in let X := real f x in
    fin f r /\ (Rabs (real f r - sgn neg * (if b then sin_p (X * X) * X + X else cos_p (X * X))) <= 25 / 100000000)%R.
  Proof.
    intros Fx B r X. unfold r, selected. cbv zeta. destruct (sin_poly_ok f K x Fx B) as [FS ES]. destruct (cos_poly_ok f K x Fx B) as [FC EC]. fold X in ES, EC.
    assert (G : exists y, f_add f (andnot f (mask f b) (cos_poly f (f_mul f x x))) (Z.land (mask f b) (sin_poly f x (f_mul f x x))) = y /\ fin f y /\ (Rabs (real f y - (if b then sin_p (X * X) * X + X else cos_p (X * X))) <= 25 / 100000000)%R).
    { eexists. split; [reflexivity|]. destruct b; unfold mask, andnot.
      - rewrite Z.sub_diag, Z.land_0_l, (land_ones_id _ (proj1 FS)). destruct (add_zero_l _ FS) as [A E]. rewrite E. split; assumption.
      - rewrite Z.sub_0_r, Z.land_0_l, (land_ones_id _ (proj1 FC)). destruct (add_zero_r _ FC) as [A E]. rewrite E. split; assumption. }
    destruct G as (y & -> & Fy & Ey). destruct (signed_ok y neg Fy) as [A E]. split; [exact A|]. rewrite E. rewrite <- Rmult_minus_distr_l, Rabs_mult.
    replace (Rabs (sgn neg)) with 1%R; [rewrite Rmult_1_l; exact Ey|]. unfold sgn. destruct neg; unfold Rabs; destruct (Rcase_abs _); lra.
  Qed.
  Lemma land_bit a k : (0 <= k)%Z -> Z.land a (2 ^ k) = if Z.testbit a k then (2 ^ k)%Z else 0%Z.
  Proof.
    intros Hk. apply Z.bits_inj'. intros i Hi. rewrite Z.land_spec, Z.pow2_bits_eqb by lia. destruct (Z.eqb_spec k i) as [->|N].
    - rewrite andb_true_r. destruct (Z.testbit a i) eqn:E; [rewrite Z.pow2_bits_true by lia; reflexivity|now rewrite Z.bits_0].
    - rewrite andb_false_r. destruct (Z.testbit a k); [|now rewrite Z.bits_0]. rewrite Z.pow2_bits_eqb by lia. symmetry. now apply Z.eqb_neq.
  Qed.
  Lemma slli_bit b : i_slli f (if b : bool then 4 else 0) (sign_shift f) = if b then c_sign_mask f else 0%Z.
  Proof. destruct b, K as [-> | ->]; vm_compute; reflexivity. Qed.
  (** bits of the octant *)
  Lemma oct_bits j : Z.even j = true -> j = (8 * (j / 8) + 4 * Z.b2z (Z.testbit j 2) + 2 * Z.b2z (Z.testbit j 1))%Z.
  Proof.
    intros E. apply Z.even_spec in E. destruct E as [h E]. rewrite !Z.testbit_spec' by lia. change (2 ^ 2)%Z with 4%Z. change (2 ^ 1)%Z with 2%Z. Z.to_euclidean_division_equations. lia.
  Qed.
  Lemma cos_bits j : (0 <= j < 2 ^ 31)%Z -> Z.even j = true -> let i := i_subl f j 2 in
    Z.testbit i 1 = negb (Z.testbit j 1) /\ Z.testbit (ones f - i) 2 = xorb (Z.testbit j 1) (Z.testbit j 2).
  Proof.
    intros Hj E i. apply Z.even_spec in E. destruct E as [h E].
    assert (W : exists M, (2 ^ fwidth f = 8 * M /\ 2 ^ 29 <= M)%Z) by (destruct K as [-> | ->]; [exists (2 ^ 29)%Z|exists (2 ^ 61)%Z]; vm_compute; split; congruence). destruct W as (M & W & WM).
    assert (B : forall a b, Z.b2z a = Z.b2z b -> a = b) by (intros [|] [|]; cbn; congruence).
    assert (X : forall a b, Z.b2z (xorb a b) = ((Z.b2z a + Z.b2z b) mod 2)%Z) by (intros [|] [|]; reflexivity).
    assert (Y : forall a, Z.b2z (negb a) = (1 - Z.b2z a)%Z) by (intros [|]; reflexivity).
    change (2 ^ 31)%Z with 2147483648%Z in Hj. change (2 ^ 29)%Z with 536870912%Z in WM.
    unfold i, i_subl, ones. rewrite W. split; apply B; rewrite ?X, ?Y, !Z.testbit_spec' by lia; change (2 ^ 2)%Z with 4%Z; change (2 ^ 1)%Z with 2%Z.
    - destruct (Z.eq_dec j 0) as [-> |N]; [rewrite <- (Z.mod_unique (0 - 2) (8 * M) (-1) (8 * M - 2)) by lia|rewrite (Z.mod_small (j - 2)) by lia]; Z.to_euclidean_division_equations; lia.
    - destruct (Z.eq_dec j 0) as [-> |N]; [rewrite <- (Z.mod_unique (0 - 2) (8 * M) (-1) (8 * M - 2)) by lia|rewrite (Z.mod_small (j - 2)) by lia]; Z.to_euclidean_division_equations; lia.
  Qed.
End Select.
(** quadrants *)
Lemma sin_quad r j : (0 <= j)%Z -> Z.even j = true -> sin (r + IZR j * (PI / 4)) = (sgn (Z.testbit j 2) * (if Z.testbit j 1 then cos r else sin r))%R.
Proof.
  intros Hj E. rewrite (oct_bits j E) at 1. set (q := (j / 8)%Z). assert (Q : (0 <= q)%Z) by (apply Z.div_pos; lia). rewrite !plus_IZR, !mult_IZR.
  replace (IZR q) with (INR (Z.to_nat q)) by (rewrite INR_IZR_INZ, Z2Nat.id by lia; reflexivity). set (k := Z.to_nat q).
  replace (r + (8 * INR k + 4 * IZR (Z.b2z (Z.testbit j 2)) + 2 * IZR (Z.b2z (Z.testbit j 1))) * (PI / 4))%R with ((r + IZR (Z.b2z (Z.testbit j 2)) * PI + IZR (Z.b2z (Z.testbit j 1)) * (PI / 2)) + 2 * INR k * PI)%R by field.
  rewrite sin_period. unfold sgn. destruct (Z.testbit j 2), (Z.testbit j 1); cbn [Z.b2z]; rewrite ?Rmult_1_l, ?Rmult_0_l, ?Rplus_0_r.
  - replace (r + PI + PI / 2)%R with ((PI / 2 + r) + PI)%R by ring. rewrite neg_sin, <- cos_sin. ring.
  - rewrite neg_sin. ring.
  - rewrite (Rplus_comm r), <- cos_sin. reflexivity.
  - reflexivity.
Qed.
Lemma cos_quad r j : (0 <= j)%Z -> Z.even j = true -> cos (r + IZR j * (PI / 4)) = (sgn (xorb (Z.testbit j 1) (Z.testbit j 2)) * (if Z.testbit j 1 then sin r else cos r))%R.
Proof.
  intros Hj E. rewrite (oct_bits j E) at 1. set (q := (j / 8)%Z). assert (Q : (0 <= q)%Z) by (apply Z.div_pos; lia). rewrite !plus_IZR, !mult_IZR.
  replace (IZR q) with (INR (Z.to_nat q)) by (rewrite INR_IZR_INZ, Z2Nat.id by lia; reflexivity). set (k := Z.to_nat q).
  replace (r + (8 * INR k + 4 * IZR (Z.b2z (Z.testbit j 2)) + 2 * IZR (Z.b2z (Z.testbit j 1))) * (PI / 4))%R with ((r + IZR (Z.b2z (Z.testbit j 2)) * PI + IZR (Z.b2z (Z.testbit j 1)) * (PI / 2)) + 2 * INR k * PI)%R by field.
  assert (C : forall a, cos (a + PI / 2) = (- sin a)%R) by (intros a; rewrite Rplus_comm, (sin_cos a); ring).
  rewrite cos_period. unfold sgn. destruct (Z.testbit j 2), (Z.testbit j 1); cbn [Z.b2z xorb]; rewrite ?Rmult_1_l, ?Rmult_0_l, ?Rplus_0_r.
  - rewrite C, neg_sin. ring.
  - rewrite neg_cos. ring.
  - rewrite C. ring.
  - reflexivity.
Qed.

Section Kernels.
  Variable f : fmt.
  Hypothesis K : known f.
  (** the absolute value and the sign *)
  Lemma abs_part x : fin f x -> let a := Z.land x (c_inv_sign_mask f) in fin f a /\ real f a = Rabs (real f x) /\ Z.land x (c_sign_mask f) = if fneg f x then c_sign_mask f else 0%Z.
  Proof.
    intros [Hx F] a. assert (A : a = fmag f x).
    { unfold a, fmag. replace (c_inv_sign_mask f) with (Z.ones (fwidth f - 1)) by (destruct K as [-> | ->]; reflexivity). apply Z.land_ones. pose proof (fw_pos f K). lia. }
    assert (V : fval f a = fabsval f x /\ fmag f a = fmag f x).
    { assert (M : (0 <= fmag f x < 2 ^ (fwidth f - 1))%Z) by (apply Z.mod_pos_bound; destruct K as [-> | ->]; reflexivity).
      rewrite A. split; [|unfold fmag; apply Z.mod_small; exact M]. unfold fval, fneg. destruct (Z.leb_spec (2 ^ (fwidth f - 1)) (fmag f x)); [lia|]. rewrite <- (mv_mag f x). symmetry. apply (mv_small f). exact M. }
    destruct V as [V M]. split; [|split].
    - split; [rewrite A; split; [apply Z.mod_pos_bound; destruct K as [-> | ->]; reflexivity|]|unfold finite_p, fexp in *; now rewrite M].
      apply Z.lt_trans with (2 ^ (fwidth f - 1))%Z; [apply Z.mod_pos_bound; destruct K as [-> | ->]; reflexivity|destruct K as [-> | ->]; reflexivity].
    - unfold real. rewrite V, <- (abs_fval f K), abs_IZR. pose proof (o_pos f K). unfold Rdiv. rewrite Rabs_mult, (Rabs_pos_eq (/ _)) by (left; now apply Rinv_0_lt_compat). reflexivity.
    - replace (c_sign_mask f) with (2 ^ (fwidth f - 1))%Z by (destruct K as [-> | ->]; reflexivity). rewrite (land_bit x (fwidth f - 1)) by (pose proof (fw_pos f K); lia).
      replace (Z.testbit x (fwidth f - 1)) with (fneg f x); [reflexivity|]. unfold fneg. assert (P1 : (0 < 2 ^ (fwidth f - 1))%Z) by (destruct K as [-> | ->]; reflexivity).
      assert (P2 : (2 ^ fwidth f = 2 * 2 ^ (fwidth f - 1))%Z) by (destruct K as [-> | ->]; reflexivity).
      assert (B : forall u v, Z.b2z u = Z.b2z v -> u = v) by (intros [|] [|]; cbn; congruence). apply B. rewrite Z.testbit_spec' by (pose proof (fw_pos f K); lia).
      destruct (Z.leb_spec (2 ^ (fwidth f - 1)) x) as [L|L]; cbn [Z.b2z].
      + rewrite <- (Z.div_unique x (2 ^ (fwidth f - 1)) 1 (x - 2 ^ (fwidth f - 1))) by lia. reflexivity.
      + rewrite Z.div_small by lia. reflexivity.
  Qed.
  Lemma sign_of x : fin f x -> real f x = (sgn (fneg f x) * Rabs (real f x))%R.
  Proof.
    intros F. pose proof (absval_pos f K x) as A. pose proof (o_pos f K) as O. unfold real, fval, sgn. assert (I : (0 < / IZR (one_val f))%R) by now apply Rinv_0_lt_compat. apply IZR_le in A. unfold Rdiv. rewrite Rabs_mult, (Rabs_pos_eq (/ _)) by lra.
    destruct (fneg f x); [rewrite opp_IZR, Rabs_Ropp|]; rewrite Rabs_pos_eq by lra; ring.
  Qed.
  Definition far (fl db : R) : R := if isF f then fl else db.
  (** both kernels share the reduction *)
  Lemma shared ax : fin f ax -> (0 <= real f ax <= 8192)%R -> exists j x r, octant f ax = j /\ (0 <= j <= 10432)%Z /\ Z.even j = true /\ reduced f ax (of_int f j) = x /\ fin f x /\
    (real f ax = r + IZR j * (PI / 4))%R /\ (Rabs (real f x - r) <= 4 / 10000000)%R /\ (Rabs (real f x) <= far (79 / 100) (1183 / 1000))%R.
  Proof.
    intros Fa Ba. destruct (octant_ok f K ax Fa Ba) as (j & Ej & Hj & Ev & D). pose proof pi_bounds as PB.
    assert (Br : (Rabs (real f ax - IZR j * (PI / 4)) <= far (787 / 1000) (118 / 100))%R) by (eapply Rle_trans; [exact D|]; unfold wid, far; destruct (isF f); lra).
    assert (I : is_int f (of_int f j) j).
    { replace j with (j mod 2 ^ fwidth f)%Z at 1; [apply (of_int_ok f K); lia|]. apply Z.mod_small. assert (2 ^ 32 <= 2 ^ fwidth f)%Z by (destruct K as [-> | ->]; vm_compute; discriminate). lia. }
    destruct (reduced_ok f K ax (of_int f j) j Fa Ba I Hj Ev) as [FR ER]; [eapply Rle_trans; [exact Br|]; unfold far; destruct (isF f); lra|].
    exists j, (reduced f ax (of_int f j)), (real f ax - IZR j * (PI / 4))%R. do 4 (split; [first [assumption|reflexivity]|]). split; [exact FR|]. split; [ring|]. split; [exact ER|].
    apply Rabs_le3 in ER, Br. apply le_Rabs. unfold far in *. destruct (isF f); lra.
  Qed.
  Lemma near_far X : (Rabs X <= far (79 / 100) (1183 / 1000))%R ->
    (Rabs (cos_p (X * X) - cos X) <= far (6 / 10000000000) (5 / 10000000))%R /\ (Rabs (sin_p (X * X) * X + X - sin X) <= far (5 / 1000000000) (439 / 100000000))%R.
  Proof.
    unfold far. destruct (isF f); intros H.
    - split; [apply cos_close_near, H|]. eapply Rle_trans; [apply sin_close_near, H|]. lra.
    - split; [apply cos_close_far, H|]. eapply Rle_trans; [apply sin_close_far, H|]. lra.
  Qed.
  (** the chosen polynomial, with its sign, against the sine or cosine of the exact remainder *)
  Lemma chosen x r (b neg : bool) : fin f x -> (Rabs (real f x - r) <= 4 / 10000000)%R -> (Rabs (real f x) <= far (79 / 100) (1183 / 1000))%R ->
    let s := selected f x (mask f b) (if neg then c_sign_mask f else 0) in
    fin f s /\ (Rabs (real f s - sgn neg * (if b then sin r else cos r)) <= far (66 / 100000000) (506 / 100000000))%R.
  Proof.
    intros Fx E B s. destruct (selected_ok f K x b neg Fx) as [A S]; [eapply Rle_trans; [exact B|]; unfold far; destruct (isF f); lra|]. split; [exact A|]. fold s in S.
    destruct (near_far _ B) as [C1 C2]. pose proof (sin_lip (real f x) r) as L1. pose proof (cos_lip (real f x) r) as L2. set (X := real f x) in *.
    assert (G : (Rabs ((if b then sin_p (X * X) * X + X else cos_p (X * X)) - (if b then sin r else cos r)) <= far (41 / 100000000) (481 / 100000000))%R).
    { destruct b.
      - replace (sin_p (X * X) * X + X - sin r)%R with ((sin_p (X * X) * X + X - sin X) + (sin X - sin r))%R by ring. eapply Rle_trans; [apply Rabs_triang|]. unfold far in *. destruct (isF f); lra.
      - replace (cos_p (X * X) - cos r)%R with ((cos_p (X * X) - cos X) + (cos X - cos r))%R by ring. eapply Rle_trans; [apply Rabs_triang|]. unfold far in *. destruct (isF f); lra. }
    set (u := (if b then sin_p (X * X) * X + X else cos_p (X * X))%R) in *. set (v := (if b then sin r else cos r)%R) in *.
    replace (real f s - sgn neg * v)%R with ((real f s - sgn neg * u) + sgn neg * (u - v))%R by ring. eapply Rle_trans; [apply Rabs_triang|]. rewrite (Rabs_mult (sgn neg)).
    replace (Rabs (sgn neg)) with 1%R by (unfold sgn; destruct neg; unfold Rabs; destruct (Rcase_abs _); lra). unfold far in *. destruct (isF f); lra.
  Qed.
  Lemma mask_bit j : (Z.land j 2 =? 0)%Z = negb (Z.testbit j 1).
  Proof. change 2%Z with (2 ^ 1)%Z at 1. rewrite land_bit by lia. destruct (Z.testbit j 1); reflexivity. Qed.
  Lemma sin_ok x : fin f x -> (Rabs (real f x) <= 8192)%R -> let r := sin256 f x in fin f r /\ (Rabs (real f r - sin (real f x)) <= far (66 / 100000000) (506 / 100000000))%R.
  Proof.
    intros Fx B r. destruct (abs_part x Fx) as (Fa & Ra & Sb). destruct (shared _ Fa) as (j & y & rho & Ej & Hj & Ev & Er & Fy & Ex & Dy & By); [rewrite Ra; split; [apply Rabs_pos|exact B]|].
    unfold r, sin256. cbv zeta. rewrite Ej, Er, Sb, mask_bit. change 4%Z with (2 ^ 2)%Z. rewrite land_bit by lia. change (2 ^ 2)%Z with 4%Z. rewrite (slli_bit f K).
    replace (Z.lxor (if fneg f x then c_sign_mask f else 0) (if Z.testbit j 2 then c_sign_mask f else 0)) with (if xorb (fneg f x) (Z.testbit j 2) then c_sign_mask f else 0%Z).
    2:{ destruct (fneg f x), (Z.testbit j 2); cbn [xorb]; rewrite ?Z.lxor_nilpotent, ?Z.lxor_0_r, ?Z.lxor_0_l; reflexivity. }
    destruct (chosen y rho (negb (Z.testbit j 1)) (xorb (fneg f x) (Z.testbit j 2)) Fy Dy By) as [A S]. split; [exact A|].
    rewrite (sign_of x Fx), <- Ra, Ex.
    replace (sin (sgn (fneg f x) * (rho + IZR j * (PI / 4)))) with (sgn (xorb (fneg f x) (Z.testbit j 2)) * (if negb (Z.testbit j 1) then sin rho else cos rho))%R; [exact S|].
    replace (sin (sgn (fneg f x) * (rho + IZR j * (PI / 4)))) with (sgn (fneg f x) * sin (rho + IZR j * (PI / 4)))%R.
    2:{ unfold sgn. destruct (fneg f x); [|rewrite !Rmult_1_l; reflexivity]. replace (-1 * (rho + IZR j * (PI / 4)))%R with (- (rho + IZR j * (PI / 4)))%R by ring. rewrite sin_neg. ring. }
    rewrite sin_quad by (try assumption; lia). unfold sgn. destruct (fneg f x), (Z.testbit j 1), (Z.testbit j 2); cbn [xorb negb]; ring.
  Qed.
  Lemma cos_ok x : fin f x -> (Rabs (real f x) <= 8192)%R -> let r := cos256 f x in fin f r /\ (Rabs (real f r - cos (real f x)) <= far (66 / 100000000) (506 / 100000000))%R.
  Proof.
    intros Fx B r. destruct (abs_part x Fx) as (Fa & Ra & _). destruct (shared _ Fa) as (j & y & rho & Ej & Hj & Ev & Er & Fy & Ex & Dy & By); [rewrite Ra; split; [apply Rabs_pos|exact B]|].
    unfold r, cos256. cbv zeta. rewrite Ej, Er, mask_bit. unfold andnot. destruct (cos_bits f K j ltac:(lia) Ev) as [B1 B2]. rewrite B1.
    change 4%Z with (2 ^ 2)%Z. rewrite land_bit by lia. change (2 ^ 2)%Z with 4%Z. rewrite B2, (slli_bit f K), negb_involutive.
    destruct (chosen y rho (Z.testbit j 1) (xorb (Z.testbit j 1) (Z.testbit j 2)) Fy Dy By) as [A S]. split; [exact A|].
    assert (E : cos (real f x) = cos (Rabs (real f x))) by (unfold Rabs; destruct (Rcase_abs _); [now rewrite cos_neg|reflexivity]).
    rewrite E, <- Ra, Ex, cos_quad by (try assumption; lia). exact S.
  Qed.
End Kernels.
