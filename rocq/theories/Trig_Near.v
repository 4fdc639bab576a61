(** Trig_Near.v - running error bounds: a pattern close to a real number. *)
From Coq Require Import Reals Lra.
From Verif Require Import Base Kernel_Model Kernel_Proofs Kernel_Props Float_Model Compare_Model Compare_Proofs Compare_Props Unary_Model Unary_Proofs Unary_Props UnaryVal_Props Round_Model Round_Props Arith_Model Arith_Props Trig_Model Trig_Props Trig_Real.

Lemma Rabs_le3 (a e : R) : (Rabs a <= e)%R -> (- e <= a <= e)%R.
Proof. intros H. unfold Rabs in H. destruct (Rcase_abs a); lra. Qed.
Lemma le_Rabs (a e : R) : (- e <= a <= e)%R -> (Rabs a <= e)%R.
Proof. intros H. unfold Rabs. destruct (Rcase_abs a); lra. Qed.
Lemma Rabs_IZR z : Rabs (IZR z) = IZR (Z.abs z).
Proof. symmetry. apply abs_IZR. Qed.

Section Pat.
  Variable f : fmt.
  Hypothesis K : known f.
  (** two patterns of the same value are the same, zeros apart *)
  Lemma pat_unique x y : (0 <= x < 2 ^ fwidth f)%Z -> (0 <= y < 2 ^ fwidth f)%Z -> fval f x = fval f y -> fval f x <> 0%Z -> x = y.
  Proof.
    intros Hx Hy E N. assert (M : forall z, (0 <= fmag f z)%Z) by (intros z; apply Z.mod_pos_bound; destruct K as [-> | ->]; reflexivity).
    assert (A : mag_value f (fmag f x) = mag_value f (fmag f y)) by (rewrite !(mv_mag f), <- !(abs_fval f K); congruence).
    assert (G : fmag f x = fmag f y).
    { destruct (Z.lt_trichotomy (fmag f x) (fmag f y)) as [L|[L|L]]; [|exact L|]; [pose proof (mv_mono f K _ _ (conj (M x) L))|pose proof (mv_mono f K _ _ (conj (M y) L))]; lia. }
    pose proof (absval_pos f K x). pose proof (absval_pos f K y). unfold fval in E, N. pose proof (mv_mag f x). pose proof (mv_mag f y).
    destruct (mag_cases f K x Hx) as [(a & b & c)|(a & b & c)], (mag_cases f K y Hy) as [(a' & b' & c')|(a' & b' & c')]; rewrite a, a' in *; lia.
  Qed.
End Pat.

Section Ops.
  Variable f : fmt.
  Hypothesis K : known f.
  Local Open Scope R_scope.
  Let o := IZR (one_val f).
  Lemma o_pos : 0 < o.
  Proof. unfold o. apply IZR_lt. apply (uv f K). Qed.
  Lemma big : (2 ^ 100 * one_val f <= max_fin f)%Z.
  Proof. destruct K as [-> | ->]; vm_compute; discriminate. Qed.
  Lemma unit_p : (2 ^ 24 <= 2 * 2 ^ fbits f)%Z. Proof. destruct K as [-> | ->]; vm_compute; discriminate. Qed.
  Lemma o_large : (2 ^ 149 <= one_val f)%Z. Proof. destruct K as [-> | ->]; vm_compute; discriminate. Qed.
  Lemma fval_real x : IZR (fval f x) = real f x * o.
  Proof. unfold real. fold o. field. pose proof o_pos. lra. Qed.
  Lemma real_le x y : real f x <= real f y <-> (fval f x <= fval f y)%Z.
  Proof.
    pose proof o_pos. pose proof (fval_real x). pose proof (fval_real y). split; intros HH.
    - apply le_IZR. rewrite H0, H1. nra.
    - apply IZR_le in HH. rewrite H0, H1 in HH. nra.
  Qed.
  Lemma real_lt x y : real f x < real f y <-> (fval f x < fval f y)%Z.
  Proof.
    pose proof o_pos. pose proof (fval_real x). pose proof (fval_real y). split; intros HH.
    - apply lt_IZR. rewrite H0, H1. nra.
    - apply IZR_lt in HH. rewrite H0, H1 in HH. nra.
  Qed.
  (** a real bound read as a bound on values *)
  Lemma r_add x y : fin f x -> fin f y -> Rabs (real f x + real f y) <= IZR (2 ^ 100) ->
    fin f (f_add f x y) /\ Rabs (real f (f_add f x y) - (real f x + real f y)) * IZR (2 ^ 24) <= Rabs (real f x + real f y).
  Proof.
    intros Fx Fy B. pose proof o_pos as O. pose proof (fval_real x) as Ex. pose proof (fval_real y) as Ey.
    assert (B' : (Z.abs (fval f x + fval f y) <= max_fin f)%Z).
    { apply Z.le_trans with (2 := big). apply le_IZR. rewrite abs_IZR, plus_IZR, mult_IZR, Ex, Ey. fold o. replace (real f x * o + real f y * o) with ((real f x + real f y) * o) by ring.
      rewrite Rabs_mult, (Rabs_pos_eq o) by lra. nra. }
    destruct (add_fin f K x y Fx Fy B') as [A E]. split; [exact A|]. set (z := f_add f x y) in *.
    assert (E' : (2 ^ 24 * Z.abs (fval f z - (fval f x + fval f y)) <= Z.abs (fval f x + fval f y))%Z) by (pose proof unit_p; nia).
    apply IZR_le in E'. rewrite mult_IZR, !abs_IZR, minus_IZR, !plus_IZR, Ex, Ey, (fval_real z) in E'.
    replace (real f z * o - (real f x * o + real f y * o)) with ((real f z - (real f x + real f y)) * o) in E' by ring.
    replace (real f x * o + real f y * o) with ((real f x + real f y) * o) in E' by ring. rewrite !Rabs_mult, (Rabs_pos_eq o) in E' by lra. nra.
  Qed.
  Lemma r_flip x : fin f x -> fin f (f_flip f x) /\ real f (f_flip f x) = - real f x.
  Proof. intros F. destruct (flip_fin f K x F) as [A V]. split; [exact A|]. unfold real. rewrite V, opp_IZR. field. apply Rgt_not_eq, o_pos. Qed.
  Lemma r_mul_gen x y : fin f x -> fin f y -> Rabs (real f x * real f y) <= Rmax_fin f ->
    fin f (f_mul f x y) /\ Rabs (real f (f_mul f x y) - real f x * real f y) * IZR (2 ^ 24) <= Rabs (real f x * real f y) + / IZR (2 ^ 126).
  Proof.
    intros Fx Fy B. pose proof o_pos as O. pose proof (fval_real x) as Ex. pose proof (fval_real y) as Ey.
    assert (B' : (Z.abs (fval f x * fval f y) <= max_fin f * one_val f)%Z).
    { apply le_IZR. rewrite abs_IZR, !mult_IZR, Ex, Ey. fold o. replace (real f x * o * (real f y * o)) with ((real f x * real f y) * (o * o)) by ring.
      rewrite Rabs_mult, (Rabs_pos_eq (o * o)) by nra. assert (0 < o * o) by nra. unfold Rmax_fin in B. fold o in B.
      replace (IZR (max_fin f) * o) with (IZR (max_fin f) / o * (o * o)) by (field; lra). nra. }
    destruct (mul_fin f K x y Fx Fy B') as [A E]. split; [exact A|]. set (z := f_mul f x y) in *.
    assert (E' : (2 ^ 24 * 2 ^ 126 * Z.abs (fval f z * one_val f - fval f x * fval f y) <= one_val f * one_val f + 2 ^ 126 * Z.abs (fval f x * fval f y))%Z).
    { destruct (Z.max_spec (2 ^ fbits f * one_val f) (Z.abs (fval f x * fval f y))) as [[L M]|[L M]]; rewrite M in E.
      - pose proof unit_p. pose proof o_large. assert (0 <= one_val f * one_val f)%Z by nia. nia.
      - pose proof unit_p. assert (2 ^ 24 * 2 ^ 126 <= 2 * one_val f)%Z by (pose proof o_large; lia). pose proof (P_pos f K).
        assert (2 * Z.abs (fval f z * one_val f - fval f x * fval f y) <= one_val f)%Z by nia.
        assert (2 ^ 24 * 2 ^ 126 * Z.abs (fval f z * one_val f - fval f x * fval f y) <= one_val f * (2 * Z.abs (fval f z * one_val f - fval f x * fval f y)))%Z by nia. pose proof o_large. nia. }
    apply IZR_le in E'. rewrite plus_IZR, !(mult_IZR), !abs_IZR, minus_IZR, !mult_IZR, Ex, Ey, (fval_real z) in E'. fold o in E'.
    replace (real f z * o * o - real f x * o * (real f y * o)) with ((real f z - real f x * real f y) * (o * o)) in E' by ring.
    replace (real f x * o * (real f y * o)) with ((real f x * real f y) * (o * o)) in E' by ring.
    assert (OO : 0 < o * o) by nra. rewrite (Rabs_mult (real f z - real f x * real f y) (o * o)), (Rabs_mult (real f x * real f y) (o * o)), !(Rabs_pos_eq (o * o)) in E' by lra.
    set (T := IZR (2 ^ 126)) in *. assert (T0 : 0 < T) by (unfold T; apply IZR_lt; reflexivity).
    set (d := Rabs (real f z - real f x * real f y)) in *. set (w := Rabs (real f x * real f y)) in *. set (Q := IZR (2 ^ 24)) in *.
    assert (G : Q * T * d <= 1 + T * w) by nra.
    apply Rmult_le_reg_l with T; [exact T0|]. rewrite Rmult_plus_distr_l, Rinv_r by lra. lra.
  Qed.
  Lemma r_mul x y : fin f x -> fin f y -> Rabs (real f x * real f y) <= IZR (2 ^ 100) ->
    fin f (f_mul f x y) /\ Rabs (real f (f_mul f x y) - real f x * real f y) * IZR (2 ^ 24) <= Rabs (real f x * real f y) + / IZR (2 ^ 126).
  Proof.
    intros Fx Fy B. apply r_mul_gen; try assumption. eapply Rle_trans; [exact B|]. unfold Rmax_fin. fold o. pose proof o_pos. pose proof big as G. apply IZR_le in G. rewrite mult_IZR in G. fold o in G.
    apply Rmult_le_reg_r with o; [assumption|]. replace (IZR (max_fin f) / o * o) with (IZR (max_fin f)) by (field; lra). exact G.
  Qed.
End Ops.

(** bounds in units of 2^-80 *)
Definition S80 : Z := 2 ^ 80.
Definition sc (z : Z) : R := (IZR z / IZR S80)%R.
Definition nb (f : fmt) (x : Z) (v : R) (e B : Z) : Prop := fin f x /\ (Rabs (real f x - v) <= sc e)%R /\ (Rabs v <= sc B)%R.
Definition cdiv (a b : Z) : Z := a / b + 1.
Definition addE (e B e' B' : Z) : Z := e + e' + cdiv (B + B' + e + e') (2 ^ 24).
Definition mulE (e B e' B' : Z) : Z := cdiv (e * B' + e' * B + e * e') S80 + cdiv ((B + e) * (B' + e')) (S80 * 2 ^ 24) + 1.
Definition mulB (B B' : Z) : Z := cdiv (B * B') S80.
Lemma S80_pos : (0 < IZR S80)%R. Proof. apply IZR_lt. reflexivity. Qed.
Lemma sc_plus a b : sc (a + b) = (sc a + sc b)%R.
Proof. unfold sc. rewrite plus_IZR. field. apply Rgt_not_eq, S80_pos. Qed.
Lemma sc_le a b : (sc a <= sc b)%R <-> a <= b.
Proof.
  unfold sc. pose proof S80_pos. split; intros H0.
  - apply le_IZR. apply Rmult_le_reg_r with (/ IZR S80)%R; [now apply Rinv_0_lt_compat|exact H0].
  - apply Rmult_le_compat_r; [left; now apply Rinv_0_lt_compat|now apply IZR_le].
Qed.
Lemma sc_0 : sc 0 = 0%R. Proof. unfold sc. lra. Qed.
Lemma sc_nonneg a : (0 <= sc a)%R <-> 0 <= a.
Proof. rewrite <- sc_0. apply sc_le. Qed.
Lemma cdiv_ge a b : 0 < b -> a <= cdiv a b * b.
Proof. intros H. unfold cdiv. pose proof (Z.div_mod a b ltac:(lia)). pose proof (Z.mod_pos_bound a b H). lia. Qed.
Lemma sc_cdiv a b : 0 < b -> (sc a / IZR b <= sc (cdiv a b))%R.
Proof.
  intros H. pose proof S80_pos. pose proof (cdiv_ge a b H) as C. apply IZR_le in C. rewrite mult_IZR in C. apply IZR_lt in H. unfold sc.
  apply Rmult_le_reg_r with (IZR b); [exact H|]. apply Rmult_le_reg_r with (IZR S80); [assumption|].
  replace (IZR a / IZR S80 / IZR b * IZR b * IZR S80)%R with (IZR a) by (field; lra). replace (IZR (cdiv a b) / IZR S80 * IZR b * IZR S80)%R with (IZR (cdiv a b) * IZR b)%R by (field; lra). exact C.
Qed.
Lemma sc_mul a b : (sc a * sc b = sc (a * b) / IZR S80)%R.
Proof. unfold sc. rewrite mult_IZR. field. apply Rgt_not_eq, S80_pos. Qed.

Section Near.
  Variable f : fmt.
  Hypothesis K : known f.
  Local Open Scope R_scope.
  Lemma nb_e x v e B : nb f x v e B -> (0 <= e)%Z /\ (0 <= B)%Z.
  Proof. intros (_ & H1 & H2). split; apply sc_nonneg; [pose proof (Rabs_pos (real f x - v))|pose proof (Rabs_pos v)]; lra. Qed.
  Definition cap : Z := (2 ^ 90 * S80)%Z.
  Lemma sc_cap : sc cap = IZR (2 ^ 90). Proof. unfold sc, cap. rewrite mult_IZR. field. apply Rgt_not_eq, S80_pos. Qed.
  Lemma nb_add x y v w e B e' B' : nb f x v e B -> nb f y w e' B' -> (B + B' + e + e' <=? cap)%Z = true ->
    nb f (f_add f x y) (v + w) (addE e B e' B') (B + B').
  Proof.
    intros HX HY C. pose proof (nb_e _ _ _ _ HX). pose proof (nb_e _ _ _ _ HY). destruct HX as (Fx & Ex & Bx). destruct HY as (Fy & Ey & By).
    apply Z.leb_le in C. apply sc_le in C. rewrite !sc_plus, sc_cap in C.
    apply Rabs_le3 in Ex. apply Rabs_le3 in Ey. apply Rabs_le3 in Bx. apply Rabs_le3 in By.
    assert (S : Rabs (real f x + real f y) <= sc (B + B' + e + e')) by (apply le_Rabs; rewrite !sc_plus; lra).
    destruct (r_add f K x y Fx Fy) as [A E].
    { eapply Rle_trans; [exact S|]. rewrite !sc_plus. assert (IZR (2 ^ 90) <= IZR (2 ^ 100)) by (apply IZR_le; vm_compute; discriminate). lra. }
    split; [exact A|]. split.
    - unfold addE. rewrite !sc_plus. pose proof (sc_cdiv (B + B' + e + e') (2 ^ 24) eq_refl) as G.
      assert (Rabs (real f (f_add f x y) - (real f x + real f y)) <= sc (B + B' + e + e') / IZR (2 ^ 24)).
      { assert (Q : 0 < IZR (2 ^ 24)) by (apply IZR_lt; reflexivity). apply Rmult_le_reg_r with (IZR (2 ^ 24)); [exact Q|].
        replace (sc (B + B' + e + e') / IZR (2 ^ 24) * IZR (2 ^ 24)) with (sc (B + B' + e + e')) by (field; lra). lra. }
      assert (T : Rabs (real f (f_add f x y) - (real f x + real f y)) <= sc (cdiv (B + B' + e + e') (2 ^ 24))) by lra.
      apply Rabs_le3 in T. apply le_Rabs. lra.
    - rewrite sc_plus. apply le_Rabs. lra.
  Qed.
  (** the same with a better bound of the sum *)
  Lemma nb_add_b b x y v w e B e' B' : nb f x v e B -> nb f y w e' B' -> Rabs (v + w) <= sc b -> (b + e + e' <=? cap)%Z = true ->
    nb f (f_add f x y) (v + w) (e + e' + cdiv (b + e + e') (2 ^ 24)) b.
  Proof.
    intros HX HY SB C. pose proof (nb_e _ _ _ _ HX). pose proof (nb_e _ _ _ _ HY). destruct HX as (Fx & Ex & Bx). destruct HY as (Fy & Ey & By).
    apply Z.leb_le in C. apply sc_le in C. rewrite !sc_plus, sc_cap in C.
    apply Rabs_le3 in Ex. apply Rabs_le3 in Ey. pose proof (Rabs_le3 _ _ SB) as SB'.
    assert (S : Rabs (real f x + real f y) <= sc (b + e + e')) by (apply le_Rabs; rewrite !sc_plus; lra).
    destruct (r_add f K x y Fx Fy) as [A E].
    { eapply Rle_trans; [exact S|]. rewrite !sc_plus. assert (IZR (2 ^ 90) <= IZR (2 ^ 100)) by (apply IZR_le; vm_compute; discriminate). lra. }
    split; [exact A|]. split; [|exact SB].
    rewrite !sc_plus. pose proof (sc_cdiv (b + e + e') (2 ^ 24) eq_refl) as G.
    assert (Rabs (real f (f_add f x y) - (real f x + real f y)) <= sc (b + e + e') / IZR (2 ^ 24)).
    { assert (Q : 0 < IZR (2 ^ 24)) by (apply IZR_lt; reflexivity). apply Rmult_le_reg_r with (IZR (2 ^ 24)); [exact Q|].
      replace (sc (b + e + e') / IZR (2 ^ 24) * IZR (2 ^ 24)) with (sc (b + e + e')) by (field; lra). lra. }
    assert (T : Rabs (real f (f_add f x y) - (real f x + real f y)) <= sc (cdiv (b + e + e') (2 ^ 24))) by lra.
    apply Rabs_le3 in T. apply le_Rabs. lra.
  Qed.
  Lemma nb_flip x v e B : nb f x v e B -> nb f (f_flip f x) (- v) e B.
  Proof.
    intros (Fx & Ex & Bx). destruct (r_flip f K x Fx) as [A E]. split; [exact A|]. rewrite E. split.
    - replace (- real f x - - v) with (- (real f x - v)) by ring. now rewrite Rabs_Ropp.
    - now rewrite Rabs_Ropp.
  Qed.
  Lemma nb_sub x y v w e B e' B' : nb f x v e B -> nb f y w e' B' -> (B + B' + e + e' <=? cap)%Z = true ->
    nb f (f_sub f x y) (v - w) (addE e B e' B') (B + B').
  Proof. intros HX HY C. unfold f_sub. apply nb_add; try assumption. now apply nb_flip. Qed.
  Lemma nb_sub_b b x y v w e B e' B' : nb f x v e B -> nb f y w e' B' -> Rabs (v - w) <= sc b -> (b + e + e' <=? cap)%Z = true ->
    nb f (f_sub f x y) (v - w) (e + e' + cdiv (b + e + e') (2 ^ 24)) b.
  Proof. intros HX HY SB C. unfold f_sub. apply (nb_add_b b x (f_flip f y) v (- w) e B e' B'); try assumption. now apply nb_flip. Qed.
  Lemma nb_mul x y v w e B e' B' : nb f x v e B -> nb f y w e' B' -> ((B + e) * (B' + e') <=? cap * S80)%Z = true ->
    nb f (f_mul f x y) (v * w) (mulE e B e' B') (mulB B B').
  Proof.
    intros HX HY C. destruct (nb_e _ _ _ _ HX) as [P1 P2]. destruct (nb_e _ _ _ _ HY) as [P3 P4]. destruct HX as (Fx & Ex & Bx). destruct HY as (Fy & Ey & By).
    apply sc_nonneg in P1, P2, P3, P4.
    pose proof S80_pos as SP.
    assert (S : Rabs (real f x * real f y) <= sc ((B + e) * (B' + e')) / IZR S80).
    { rewrite <- sc_mul, Rabs_mult. assert (Rabs (real f x) <= sc (B + e)) by (rewrite sc_plus; apply Rabs_le3 in Ex; apply Rabs_le3 in Bx; apply le_Rabs; lra).
      assert (Rabs (real f y) <= sc (B' + e')) by (rewrite sc_plus; apply Rabs_le3 in Ey; apply Rabs_le3 in By; apply le_Rabs; lra).
      apply Rmult_le_compat; auto using Rabs_pos. }
    apply Z.leb_le in C. apply sc_le in C.
    assert (C2 : sc ((B + e) * (B' + e')) / IZR S80 <= IZR (2 ^ 90)).
    { apply Rmult_le_reg_r with (IZR S80); [exact SP|]. replace (sc ((B + e) * (B' + e')) / IZR S80 * IZR S80) with (sc ((B + e) * (B' + e'))) by (field; lra).
      eapply Rle_trans; [exact C|]. unfold sc, cap. rewrite !mult_IZR. right. field. lra. }
    destruct (r_mul f K x y Fx Fy) as [A E].
    { eapply Rle_trans; [exact S|]. assert (IZR (2 ^ 90) <= IZR (2 ^ 100)) by (apply IZR_le; vm_compute; discriminate). lra. }
    split; [exact A|]. split.
    - unfold mulE. rewrite !sc_plus.
      pose proof (sc_cdiv (e * B' + e' * B + e * e') S80 eq_refl) as G1. pose proof (sc_cdiv ((B + e) * (B' + e')) (S80 * 2 ^ 24) eq_refl) as G2.
      assert (Q : 0 < IZR (2 ^ 24)) by (apply IZR_lt; reflexivity).
      assert (M1 : Rabs (real f x * real f y - v * w) <= sc (e * B' + e' * B + e * e') / IZR S80).
      { replace (sc (e * B' + e' * B + e * e') / IZR S80) with (sc e * sc B' + sc e' * sc B + sc e * sc e') by (rewrite !sc_mul, !sc_plus; field; lra).
        replace (real f x * real f y - v * w) with ((real f x - v) * w + (real f y - w) * v + (real f x - v) * (real f y - w)) by ring.
        eapply Rle_trans; [apply Rabs_triang|]. apply Rplus_le_compat; [eapply Rle_trans; [apply Rabs_triang|]; apply Rplus_le_compat|]; rewrite Rabs_mult; apply Rmult_le_compat; auto using Rabs_pos. }
      assert (M2 : Rabs (real f (f_mul f x y) - real f x * real f y) <= sc (cdiv ((B + e) * (B' + e')) (S80 * 2 ^ 24)) + sc 1).
      { apply Rmult_le_reg_r with (IZR (2 ^ 24)); [exact Q|]. eapply Rle_trans; [exact E|]. rewrite Rmult_plus_distr_r. apply Rplus_le_compat.
        - eapply Rle_trans; [exact S|]. rewrite mult_IZR in G2. apply Rmult_le_reg_r with (/ IZR (2 ^ 24)); [now apply Rinv_0_lt_compat|].
          replace (sc (cdiv ((B + e) * (B' + e')) (S80 * 2 ^ 24)) * IZR (2 ^ 24) * / IZR (2 ^ 24)) with (sc (cdiv ((B + e) * (B' + e')) (S80 * 2 ^ 24))) by (field; lra).
          eapply Rle_trans; [|exact G2]. right. field. split; lra.
        - unfold sc, S80. apply Rmult_le_reg_l with (IZR (2 ^ 126)); [apply IZR_lt; reflexivity|]. rewrite Rinv_r by (apply Rgt_not_eq, IZR_lt; reflexivity).
          apply Rmult_le_reg_r with (IZR (2 ^ 80)); [apply IZR_lt; reflexivity|].
          replace (IZR (2 ^ 126) * (1 / IZR (2 ^ 80) * IZR (2 ^ 24)) * IZR (2 ^ 80)) with (IZR (2 ^ 126) * IZR (2 ^ 24)) by (field; apply Rgt_not_eq, IZR_lt; reflexivity).
          rewrite <- !mult_IZR. apply IZR_le. vm_compute. discriminate. }
      apply Rabs_le3 in M1. apply Rabs_le3 in M2. apply le_Rabs. lra.
    - unfold mulB. eapply Rle_trans; [|apply sc_cdiv; reflexivity]. rewrite <- sc_mul, Rabs_mult. apply Rmult_le_compat; auto using Rabs_pos.
  Qed.
  (** a literal *)
  Definition litE (num den : Z) : Z := cdiv (Z.abs num * S80) (den * 2 ^ 24) + 1.
  Definition litB (num den : Z) : Z := cdiv (Z.abs num * S80) den.
  Lemma nb_lit num den : (0 < den)%Z -> (Z.abs num <=? 2 ^ 90 * den)%Z = true -> nb f (lit f num den) (IZR num / IZR den) (litE num den) (litB num den).
  Proof.
    intros HD HB. apply Z.leb_le in HB. destruct (uv f K) as [U1 U2]. unfold lit. rewrite U1. pose proof (big f K) as BG. pose proof (P_pos f K) as PP. pose proof S80_pos as SP.
    destruct (rnd_err f K (Z.abs num * one_val f) den ltac:(lia) HD ltac:(nia)) as [R E]. set (g := rnd_mag f (Z.abs num * one_val f) den) in *.
    destruct (put_val f K (num <? 0)%Z g R) as [A V]. split; [exact A|]. set (z := put_sign f (num <? 0)%Z g) in *.
    assert (D : (Z.abs (fval f z * den - num * one_val f) = Z.abs (mag_value f g * den - Z.abs num * one_val f))%Z) by (rewrite V; destruct (Z.ltb_spec num 0); nia).
    rewrite <- D in E. assert (D0 : 0 < IZR den) by now apply IZR_lt. pose proof (o_pos f K) as O.
    assert (E' : (2 ^ 24 * 2 ^ 126 * Z.abs (fval f z * den - num * one_val f) <= one_val f * den + 2 ^ 126 * (Z.abs num * one_val f))%Z).
    { destruct (Z.max_spec (2 ^ fbits f * den) (Z.abs num * one_val f)) as [[L M]|[L M]]; rewrite M in E.
      - pose proof (unit_p f K). pose proof (o_large f K). assert (0 <= one_val f * den)%Z by nia. nia.
      - pose proof (o_large f K). assert (2 * Z.abs (fval f z * den - num * one_val f) <= den)%Z by nia.
        assert (2 ^ 24 * 2 ^ 126 * Z.abs (fval f z * den - num * one_val f) <= one_val f * (2 * Z.abs (fval f z * den - num * one_val f)))%Z by nia. nia. }
    split.
    - assert (F : Rabs (real f z - IZR num / IZR den) * IZR (2 ^ 24) <= / IZR (2 ^ 126) + IZR (Z.abs num) / IZR den).
      { apply IZR_le in E'. rewrite plus_IZR, !mult_IZR, !abs_IZR, minus_IZR, !mult_IZR, (fval_real f K z) in E'. set (o := IZR (one_val f)) in *.
        replace (real f z * o * IZR den - IZR num * o) with ((real f z - IZR num / IZR den) * (o * IZR den)) in E' by (field; lra).
        rewrite Rabs_mult, (Rabs_pos_eq (o * IZR den)) in E' by nra. set (d := Rabs (real f z - IZR num / IZR den)) in *.
        set (T := IZR (2 ^ 126)) in *. assert (T0 : 0 < T) by (unfold T; apply IZR_lt; reflexivity). rewrite abs_IZR.
        apply Rmult_le_reg_l with (T * (o * IZR den)); [apply Rmult_lt_0_compat; [exact T0|nra]|].
        replace (T * (o * IZR den) * (/ T + Rabs (IZR num) / IZR den)) with (o * IZR den + T * (Rabs (IZR num) * o)) by (field; split; lra). lra. }
      unfold litE. rewrite sc_plus. assert (Q : 0 < IZR (2 ^ 24)) by (apply IZR_lt; reflexivity).
      apply Rmult_le_reg_r with (IZR (2 ^ 24)); [exact Q|]. eapply Rle_trans; [exact F|]. rewrite Rmult_plus_distr_r, Rplus_comm. apply Rplus_le_compat.
      + pose proof (sc_cdiv (Z.abs num * S80) (den * 2 ^ 24) ltac:(lia)) as G. apply Rmult_le_compat_r with (r := IZR (2 ^ 24)) in G; [|lra].
        eapply Rle_trans; [|exact G]. right. unfold sc. rewrite !mult_IZR. field. split; [lra|]. split; lra.
      + unfold sc, S80. apply Rmult_le_reg_l with (IZR (2 ^ 126)); [apply IZR_lt; reflexivity|]. rewrite Rinv_r by (apply Rgt_not_eq, IZR_lt; reflexivity).
        apply Rmult_le_reg_r with (IZR (2 ^ 80)); [apply IZR_lt; reflexivity|].
        replace (IZR (2 ^ 126) * (1 / IZR (2 ^ 80) * IZR (2 ^ 24)) * IZR (2 ^ 80)) with (IZR (2 ^ 126) * IZR (2 ^ 24)) by (field; apply Rgt_not_eq, IZR_lt; reflexivity).
        rewrite <- !mult_IZR. apply IZR_le. vm_compute. discriminate.
    - unfold litB. eapply Rle_trans; [|apply sc_cdiv; exact HD]. right. unfold Rdiv. rewrite Rabs_mult, (Rabs_pos_eq (/ IZR den)) by (left; now apply Rinv_0_lt_compat).
      unfold sc. rewrite mult_IZR, abs_IZR. field. split; lra.
  Qed.
  (** an exact value *)
  Lemma nb_exact x v b : fin f x -> real f x = v -> Rabs v <= sc b -> nb f x v 0 b.
  Proof. intros A E B. split; [exact A|]. split; [|exact B]. rewrite E, Rminus_diag_eq, Rabs_R0, sc_0 by reflexivity. lra. Qed.
  (** floor *)
  Lemma fin_of_val x : (0 <= x < 2 ^ fwidth f)%Z -> (Z.abs (fval f x) <= max_fin f)%Z -> fin f x.
  Proof.
    intros Hx B. destruct (classes f K x) as (_ & _ & _ & N & FN & _). split; [exact Hx|]. apply FN. rewrite abs_fval, <- (mv_mag f) in B by assumption.
    assert (M : (0 <= fmag f x)%Z) by (apply Z.mod_pos_bound; destruct K as [-> | ->]; reflexivity).
    assert (L : (fmag f x < finf f)%Z). { destruct (Z.lt_ge_cases (fmag f x) (finf f)) as [|G]; [assumption|exfalso]. destruct (inf_bound f K) as [[I1 I2] _].
      pose proof (mv_mono f K (finf f - 1) (fmag f x) ltac:(lia)). unfold max_fin in B. lia. }
    unfold is_nan, is_inf. split; [apply Z.ltb_ge|apply Z.eqb_neq]; lia.
  Qed.
  Lemma fin_of_real x : (0 <= x < 2 ^ fwidth f)%Z -> Rabs (real f x) <= IZR (2 ^ 100) -> fin f x.
  Proof.
    intros Hx B. apply fin_of_val; [exact Hx|]. apply Z.le_trans with (2 := big f K). apply le_IZR. rewrite abs_IZR, (fval_real f K), mult_IZR, Rabs_mult.
    pose proof (o_pos f K). rewrite (Rabs_pos_eq (IZR (one_val f))) by lra. nra.
  Qed.
  Lemma r_floor x : fin f x -> Rabs (real f x) <= IZR (2 ^ 90) -> exists n, fin f (f_round TowardMinus f x) /\ real f (f_round TowardMinus f x) = IZR n /\ IZR n <= real f x < IZR n + 1.
  Proof.
    intros [Hx Fx] Bx. destruct (round_ok f K TowardMinus x Hx) as [R [_ RR]]. destruct (fin_mag f K x (conj Hx Fx)) as (_ & N & _).
    destruct RR as (NN & SG & q & E & FL). { intros C. apply (class_nan f K) in C. congruence. }
    exists q. pose proof (o_pos f K) as O. cbn [P_of] in FL. destruct FL as [F1 F2].
    assert (V : real f (f_round TowardMinus f x) = IZR q) by (unfold real; rewrite E, mult_IZR; field; lra).
    assert (L : IZR q <= real f x < IZR q + 1).
    { apply IZR_le in F1. apply IZR_lt in F2. rewrite mult_IZR, (fval_real f K) in *. rewrite plus_IZR in F2. nra. }
    split; [|split; [exact V|exact L]]. apply fin_of_real; [exact R|]. rewrite V.
    apply Rabs_le3 in Bx. assert (IZR (2 ^ 90) + 1 <= IZR (2 ^ 100)) by (rewrite <- plus_IZR; apply IZR_le; vm_compute; discriminate). apply le_Rabs. lra.
  Qed.
  (** weakening *)
  Lemma nb_weak x v e B e' B' : nb f x v e B -> (e <=? e')%Z = true -> (B <=? B')%Z = true -> nb f x v e' B'.
  Proof. intros (A & E & C) H1 H2. apply Z.leb_le in H1, H2. apply sc_le in H1, H2. split; [exact A|]. split; lra. Qed.
  Lemma nb_shift x v v' e B e' B' d b : nb f x v e B -> Rabs (v - v') <= sc d -> Rabs v' <= sc b -> (e + d <=? e')%Z = true -> (b <=? B')%Z = true -> nb f x v' e' B'.
  Proof.
    intros (A & E & C) H1 H2 H3 H4. apply Z.leb_le in H3, H4. apply sc_le in H3, H4. rewrite sc_plus in H3. split; [exact A|]. split; [|lra].
    apply Rabs_le3 in E. apply Rabs_le3 in H1. apply le_Rabs. lra.
  Qed.
End Near.
