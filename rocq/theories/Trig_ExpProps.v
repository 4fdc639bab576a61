(** Trig_ExpProps.v - C59: how close np.exp comes to e^x. *)
From Coq Require Import Reals Lra.
From Verif Require Import Base Kernel_Model Kernel_Proofs Kernel_Props Float_Model Compare_Model Compare_Proofs Compare_Props Unary_Model Unary_Proofs Unary_Props UnaryVal_Props Round_Model Round_Props Arith_Model Arith_Props Trig_Model Trig_Props Exp_Bounds Trig_Real Trig_Near Trig_Exp.

(** close to the clamps: every operation is monotone, so the clamps bound the argument *)
Lemma edge x : fin FLT x -> (fval FLT (exp_lo FLT) <= fval FLT x <= fval FLT (exp_hi FLT))%Z ->
  (-127 <= real FLT (exp_arg FLT x) < 128)%R.
Proof.
  intros Fx B. assert (K : known FLT) by now left. pose proof (o_pos FLT K) as OP.
  set (c := c_LOG2EF FLT). set (h := c_0p5 FLT).
  assert (Fc : fin FLT c) by (split; [vm_compute; split; congruence|intros C; vm_compute in C; discriminate]). assert (Fh : fin FLT h) by (split; [vm_compute; split; congruence|intros C; vm_compute in C; discriminate]).
  assert (NC : fneg FLT c = false) by (vm_compute; reflexivity). assert (CP : (0 <= fval FLT c)%Z) by (vm_compute; discriminate).
  set (U := fval FLT (exp_hi FLT)) in *. set (V := fval FLT (exp_lo FLT)) in *.
  assert (B1 : (V * fval FLT c <= fval FLT x * fval FLT c <= U * fval FLT c)%Z) by (split; apply Z.mul_le_mono_nonneg_r; tauto).
  assert (B2 : (U * fval FLT c <= max_fin FLT * one_val FLT /\ - (max_fin FLT * one_val FLT) <= V * fval FLT c)%Z) by (split; vm_compute; discriminate).
  assert (B3 : (Z.abs (fval FLT x * fval FLT c) <= max_fin FLT * one_val FLT)%Z) by lia.
  destruct (mul_fin FLT K x c Fx Fc B3) as [FM _]. pose proof (mul_val FLT K x c Fx Fc NC B3) as VM.
  assert (O1 : (0 < one_val FLT)%Z) by (vm_compute; reflexivity).
  pose proof (rounded_mono FLT K _ _ (one_val FLT) (proj1 B1) O1) as M1. pose proof (rounded_mono FLT K _ _ (one_val FLT) (proj2 B1) O1) as M2. rewrite <- VM in M1, M2.
  set (m1 := rounded_val FLT (V * fval FLT c) (one_val FLT)) in *. set (m2 := rounded_val FLT (U * fval FLT c) (one_val FLT)) in *. set (p := f_mul FLT x c) in *.
  assert (B4 : (m2 + fval FLT h <= max_fin FLT /\ - max_fin FLT <= m1 + fval FLT h)%Z) by (split; vm_compute; discriminate).
  assert (B5 : (Z.abs (fval FLT p + fval FLT h) <= max_fin FLT)%Z) by lia.
  pose proof (add_val FLT K p h FM Fh B5) as VA. change (f_add FLT p h) with (exp_arg FLT x) in VA.
  pose proof (rounded_mono FLT K (m1 + fval FLT h) (fval FLT p + fval FLT h) 1 ltac:(lia) ltac:(lia)) as M3.
  pose proof (rounded_mono FLT K (fval FLT p + fval FLT h) (m2 + fval FLT h) 1 ltac:(lia) ltac:(lia)) as M4. rewrite <- VA in M3, M4.
  assert (E1 : (-127 * one_val FLT <= rounded_val FLT (m1 + fval FLT h) 1)%Z) by (vm_compute; discriminate).
  assert (E2 : (rounded_val FLT (m2 + fval FLT h) 1 < 128 * one_val FLT)%Z) by (vm_compute; reflexivity).
  assert (E3 : (-127 * one_val FLT <= fval FLT (exp_arg FLT x) < 128 * one_val FLT)%Z) by lia. destruct E3 as [E3 E4]. apply IZR_le in E3. apply IZR_lt in E4.
  rewrite !mult_IZR, (fval_real FLT K) in E3, E4. split; [apply Rmult_le_reg_r with (IZR (one_val FLT)); assumption|apply Rmult_lt_reg_r with (IZR (one_val FLT)); assumption].
Qed.
(** the pieces of exp256 at a clamped argument *)
Lemma exp32_parts c : fin FLT c -> f_max FLT (f_min FLT c (exp_hi FLT)) (exp_lo FLT) = c -> (Rabs (real FLT c) <= 8838 / 100)%R -> (fval FLT (exp_lo FLT) <= fval FLT c <= fval FLT (exp_hi FLT))%Z ->
  exists n y, exp256 FLT c = f_mul FLT y (factor FLT n) /\ (-127 <= n <= 127)%Z /\
    (Rabs (real FLT c * (144269504088896341 / 100000000000000000) - IZR n) <= 1 / 2 + 3 / 100000)%R /\
    (Rabs (real FLT c - IZR n * ln 2) <= 3467 / 10000)%R /\ fin FLT y /\ (Rabs (real FLT y - exp (real FLT c - IZR n * ln 2)) <= 32 / 100000000)%R.
Proof.
  intros Fc CL B V. assert (K : known FLT) by now left.
  destruct (exp_core FLT K c Fc CL B) as (n & fx & y & E & Ff & Ef & Ln & Hn & Br & D & Fy & Ey).
  exists n, y. rewrite E, (factor_is FLT fx n K (to_int_ok FLT K fx n Ff Ef Hn)). split; [reflexivity|]. split; [|auto].
  destruct (edge c Fc V) as [A1 A2]. assert (H : (IZR n < IZR 128)%R) by lra. assert (H2 : (IZR (-128) < IZR n)%R) by lra. apply lt_IZR in H, H2. lia.
Qed.
Lemma exp32_normal n y c r : r = f_mul FLT y (factor FLT n) -> (-126 <= n <= 127)%Z -> (Rabs (real FLT c - IZR n * ln 2) <= 3467 / 10000)%R -> fin FLT y ->
  (Rabs (real FLT y - exp (real FLT c - IZR n * ln 2)) <= 32 / 100000000)%R -> fin FLT r /\ (Rabs (real FLT r - exp (real FLT c)) <= 1 / 1000000 * exp (real FLT c))%R.
Proof.
  intros -> N Br Fy Ey. assert (K : known FLT) by now left. destruct (factor_FLT n N) as [Fp Ep]. rewrite (exp_split (real FLT c) n).
  apply scaled; try assumption; [|lia]. apply (max_room FLT 127); try assumption; [lia|vm_compute; reflexivity|lia].
Qed.
Lemma exp32_zero y : fin FLT y -> (Rabs (real FLT y) <= 2)%R -> fin FLT (f_mul FLT y (factor FLT (-127))) /\ (Rabs (real FLT (f_mul FLT y (factor FLT (-127)))) * IZR (2 ^ 24) <= / IZR (2 ^ 126))%R.
Proof.
  intros Fy By. assert (K : known FLT) by now left. change (factor FLT (-127)) with 0%Z.
  assert (F0 : fin FLT 0) by (split; [vm_compute; split; congruence|intros C; vm_compute in C; discriminate]).
  assert (R0 : real FLT 0 = 0%R) by (unfold real; replace (fval FLT 0) with 0%Z by (vm_compute; reflexivity); unfold Rdiv; now rewrite Rmult_0_l).
  destruct (r_mul_gen FLT K y 0 Fy F0) as [A E].
  { rewrite R0, Rmult_0_r, Rabs_R0. unfold Rmax_fin. apply Rmult_le_pos; [apply IZR_le; vm_compute; discriminate|]. left. apply Rinv_0_lt_compat, (o_pos FLT K). }
  split; [exact A|]. rewrite R0, Rmult_0_r, Rminus_0_r, Rabs_R0, Rplus_0_l in E. exact E.
Qed.

(** float32, where e^x is in range and not (far into) the subnormals *)
Lemma exp32 x : fin FLT x -> (- (8768 / 100) <= real FLT x <= 8837625 / 100000)%R -> let r := exp256 FLT x in
  fin FLT r /\ (Rabs (real FLT r - exp (real FLT x)) <= 1 / 1000000 * exp (real FLT x))%R.
Proof.
  intros Fx B r. assert (K : known FLT) by now left. destruct (clamp_cases FLT x K Fx) as (c & Fc & CL & E & Bc & V & C). pose proof (o_pos FLT K) as OP.
  assert (c = x) as ->.
  { destruct C as [-> |[[-> H]|[-> H]]]; [reflexivity|exfalso|exfalso].
    - assert (W : (8837625 * one_val FLT < 100000 * fval FLT (exp_hi FLT))%Z) by (vm_compute; reflexivity). apply IZR_lt in W. rewrite !mult_IZR, (fval_real FLT K) in W. set (o := IZR (one_val FLT)) in *. nra.
    - assert (W : (100 * fval FLT (exp_lo FLT) < -8768 * one_val FLT)%Z) by (vm_compute; reflexivity). apply IZR_lt in W. rewrite !mult_IZR, (fval_real FLT K) in W. set (o := IZR (one_val FLT)) in *. nra. }
  destruct (exp32_parts x Fx CL Bc V) as (n & y & E2 & N & D & Br & Fy & Ey).
  apply (exp32_normal n y); try assumption. split; [|lia]. apply (n_ge _ _ _ D). lra.
Qed.
Lemma tiny_exp x : (x <= - (8768 / 100) -> exp x <= 72 / 100 * / IZR (2 ^ 126))%R.
Proof.
  intros H. rewrite exp_two by lia. rewrite <- exp_Ropp. pose proof ln2_bounds as L. unfold ln2_lo, ln2_hi in L.
  assert (S : (exp x <= exp (- (IZR 126 * ln 2) + - (343 / 1000)))%R) by (apply exp_le; lra). rewrite exp_plus in S.
  pose proof (exp_poly_close (- (343 / 1000))%R ltac:(apply le_Rabs; lra)) as P. apply Rabs_le3 in P. unfold exp_poly in P.
  assert (Q : (exp (- (343 / 1000)) <= 72 / 100)%R) by lra. pose proof (exp_pos (- (IZR 126 * ln 2))). nra.
Qed.
Lemma exp32_small x : fin FLT x -> (real FLT x <= - (8768 / 100))%R -> let r := exp256 FLT x in
  fin FLT r /\ (Rabs (real FLT r - exp (real FLT x)) <= / IZR (2 ^ 126))%R.
Proof.
  intros Fx B r. assert (K : known FLT) by now left. destruct (clamp_cases FLT x K Fx) as (c & Fc & CL & E & Bc & V & C). pose proof (o_pos FLT K) as OP.
  pose proof (tiny_exp _ B) as T. pose proof (exp_pos (real FLT x)) as EP. assert (U : (0 < / IZR (2 ^ 126))%R) by (apply Rinv_0_lt_compat, IZR_lt; reflexivity). set (u := (/ IZR (2 ^ 126))%R) in *.
  destruct (exp32_parts c Fc CL Bc V) as (n & y & E2 & N & D & Br & Fy & Ey). unfold r. rewrite E.
  assert (YB : (Rabs (real FLT y) <= 2)%R) by (destruct (exp_r_bounds _ Br); apply Rabs_le3 in Ey; apply le_Rabs; lra).
  destruct (Z.eq_dec n (-127)) as [->|Ne].
  - rewrite E2. destruct (exp32_zero y Fy YB) as [A Z]. split; [exact A|]. fold u in Z. change (IZR (2 ^ 24)) with 16777216%R in Z. set (z := real FLT (f_mul FLT y (factor FLT (-127)))) in *. clearbody u. assert (Z' : (Rabs z <= u / 16777216)%R) by lra. apply Rabs_le3 in Z'. apply le_Rabs. lra.
  - destruct (exp32_normal n y c _ E2 ltac:(lia) Br Fy Ey) as [A Z]. split; [exact A|].
    assert (c = x) as ->; [|set (z := real FLT (exp256 FLT x)) in *; apply Rabs_le3 in Z; apply le_Rabs; lra].
    destruct C as [-> |[[-> H]|[-> H]]]; [reflexivity|exfalso|exfalso].
    + assert (W : (0 < fval FLT (exp_hi FLT))%Z) by (vm_compute; reflexivity). apply IZR_lt in W. rewrite (fval_real FLT K) in W. set (o := IZR (one_val FLT)) in *. nra.
    + assert (exp256 FLT (exp_lo FLT) = 0)%Z by (vm_compute; reflexivity).
      assert (Z0 : real FLT (exp256 FLT (exp_lo FLT)) = 0%R) by (rewrite H0; unfold real; replace (fval FLT 0) with 0%Z by (vm_compute; reflexivity); unfold Rdiv; now rewrite Rmult_0_l).
      rewrite Z0 in Z. pose proof (exp_pos (real FLT (exp_lo FLT))). apply Rabs_le3 in Z. lra.
Qed.
(** float32 between the clamp and the overflow threshold *)
Lemma exp32_wrong x : fin FLT x -> (885 / 10 <= real FLT x)%R -> let r := exp256 FLT x in fin FLT r /\ (exp (real FLT x) / 10 <= Rabs (real FLT r - exp (real FLT x)))%R.
Proof.
  intros Fx B r. assert (K : known FLT) by now left. destruct (clamp_cases FLT x K Fx) as (c & Fc & CL & E & Bc & V & C). pose proof (o_pos FLT K) as OP.
  assert (c = exp_hi FLT) as ->.
  { apply Rabs_le3 in Bc. destruct C as [-> |[[-> H]|[-> H]]]; [lra|reflexivity|lra]. }
  unfold r. rewrite E. assert (T : exp256 FLT (exp_hi FLT) = 2134181028%Z) by (vm_compute; reflexivity). rewrite T.
  split; [split; [vm_compute; split; congruence|intros X; vm_compute in X; discriminate]|].
  assert (W : (1000 * fval FLT 2134181028 <= 1415 * 2 ^ 127 * one_val FLT)%Z) by (vm_compute; discriminate). apply IZR_le in W. rewrite !mult_IZR, (fval_real FLT K) in W. rewrite exp_two in W by lia.
  set (t := real FLT 2134181028) in *. set (p := exp (IZR 127 * ln 2)) in *. set (o := IZR (one_val FLT)) in *.
  assert (W' : (t <= 1415 / 1000 * p)%R) by nra. clear W. pose proof (exp_pos (IZR 127 * ln 2)) as PP. fold p in PP.
  pose proof ln2_bounds as L. unfold ln2_lo, ln2_hi in L.
  assert (S : (exp (IZR 127 * ln 2 + (235 / 1000 + 235 / 1000)) <= exp (real FLT x))%R) by (apply exp_le; lra). rewrite !exp_plus in S. fold p in S.
  pose proof (exp_poly_close (235 / 1000)%R ltac:(apply le_Rabs; lra)) as P. apply Rabs_le3 in P. unfold exp_poly in P. assert (Q : (12648 / 10000 <= exp (235 / 1000))%R) by lra.
  assert (Q2 : (15997 / 10000 <= exp (235 / 1000) * exp (235 / 1000))%R) by nra. assert (S2 : (15997 / 10000 * p <= exp (real FLT x))%R) by nra.
  rewrite Rabs_left1 by lra. lra.
Qed.

(** ---------- C59 ---------- *)
(** The property: an element x of np.exp's answer is close to e^x whenever e^x is in range.  [real f p] is the real
    number the pattern p stands for, [fin f p] says that p is a finite number; [exp] is the exponential of Coq's
    Reals.  What is missing for float32: arguments in (88.37625, 88.7228), where e^x is still below the largest float
    (refuted below), and the elements left to the scalar loop, which are libm's. *)
Theorem C59_float32_partial : forall libm numpy a out n m i,
  scalar_fun FLT libm -> contiguous FLT a out n m -> in_groups FLT n i ->
  let x := elem FLT m a i in
  let r := elem FLT (TrigCall EXP FLT libm numpy a out n (fsize FLT) (fsize FLT) m) out i in
  fin FLT x -> (- (8768 / 100) <= real FLT x <= 8837625 / 100000)%R ->
  fin FLT r /\ (Rabs (real FLT r - exp (real FLT x)) <= 1 / 1000000 * exp (real FLT x))%R.
Proof.
  intros libm numpy a out n m i Hl C G x r Fx B. unfold r. rewrite (body_answer EXP FLT (exp256 FLT) libm numpy a out n m i (or_introl eq_refl) eq_refl Hl C G). now apply exp32.
Qed.
(** below that, e^x is less than the smallest normal number 2^-126, and so is the error *)
Theorem C59_float32_small_partial : forall libm numpy a out n m i,
  scalar_fun FLT libm -> contiguous FLT a out n m -> in_groups FLT n i ->
  let x := elem FLT m a i in
  let r := elem FLT (TrigCall EXP FLT libm numpy a out n (fsize FLT) (fsize FLT) m) out i in
  fin FLT x -> (real FLT x <= - (8768 / 100))%R ->
  fin FLT r /\ (Rabs (real FLT r - exp (real FLT x)) <= / IZR (2 ^ 126))%R /\ (exp (real FLT x) < / IZR (2 ^ 126))%R.
Proof.
  intros libm numpy a out n m i Hl C G x r Fx B. unfold r. rewrite (body_answer EXP FLT (exp256 FLT) libm numpy a out n m i (or_introl eq_refl) eq_refl Hl C G).
  destruct (exp32_small x Fx B) as [A E]. split; [exact A|]. split; [exact E|]. pose proof (tiny_exp _ B) as T.
  assert (U : (0 < / IZR (2 ^ 126))%R) by (apply Rinv_0_lt_compat, IZR_lt; reflexivity). set (u := (/ IZR (2 ^ 126))%R) in *. clearbody u. lra.
Qed.
(** C59 is false for float32 from 88.5 on, although e^x is in range up to 88.7228: the answer is finite and a tenth off *)
Theorem C59_float32_refuted : forall libm numpy a out n m i,
  scalar_fun FLT libm -> contiguous FLT a out n m -> in_groups FLT n i ->
  let x := elem FLT m a i in
  let r := elem FLT (TrigCall EXP FLT libm numpy a out n (fsize FLT) (fsize FLT) m) out i in
  fin FLT x -> (885 / 10 <= real FLT x)%R ->
  fin FLT r /\ (exp (real FLT x) / 10 <= Rabs (real FLT r - exp (real FLT x)))%R.
Proof.
  intros libm numpy a out n m i Hl C G x r Fx B. unfold r. rewrite (body_answer EXP FLT (exp256 FLT) libm numpy a out n m i (or_introl eq_refl) eq_refl Hl C G). now apply exp32_wrong.
Qed.
(** C59 is false for every finite float64: the answer is +infinity, or at least e^x/2 away from e^x *)
Theorem C59_float64_refuted : forall libm numpy a out n m i,
  scalar_fun DBL libm -> contiguous DBL a out n m -> in_groups DBL n i ->
  let x := elem DBL m a i in
  let r := elem DBL (TrigCall EXP DBL libm numpy a out n (fsize DBL) (fsize DBL) m) out i in
  fin DBL x -> r = finf DBL \/ (fin DBL r /\ (exp (real DBL x) / 2 <= Rabs (real DBL r - exp (real DBL x)))%R).
Proof.
  intros libm numpy a out n m i Hl C G x r Fx. unfold r. rewrite (body_answer EXP DBL (exp256 DBL) libm numpy a out n m i (or_intror eq_refl) eq_refl Hl C G). now apply exp64_wrong.
Qed.
(** what float64 gets instead: 2^1023 e^x; +infinity; a number that is not positive *)
Theorem C59_float64_answers_partial : forall libm numpy a out n m i,
  scalar_fun DBL libm -> contiguous DBL a out n m -> in_groups DBL n i ->
  let x := elem DBL m a i in
  let r := elem DBL (TrigCall EXP DBL libm numpy a out n (fsize DBL) (fsize DBL) m) out i in
  fin DBL x ->
  ((- (8837 / 100) <= real DBL x <= 346 / 1000)%R -> fin DBL r /\ (Rabs (real DBL r - IZR (2 ^ 1023) * exp (real DBL x)) <= 1 / 1000000 * (IZR (2 ^ 1023) * exp (real DBL x)))%R) /\
  ((347 / 1000 <= real DBL x <= 10396 / 10000)%R -> r = finf DBL) /\
  ((104 / 100 <= real DBL x)%R -> fin DBL r /\ (real DBL r <= 0)%R).
Proof.
  intros libm numpy a out n m i Hl C G x r Fx. assert (K : known DBL) by now right.
  unfold r. rewrite (body_answer EXP DBL (exp256 DBL) libm numpy a out n m i K eq_refl Hl C G). fold x.
  destruct (clamp_cases DBL x K Fx) as (c & Fc & CL & E & Bc & V & CC). pose proof (o_pos DBL K) as OP. rewrite E.
  assert (HI : (8837 / 100 <= real DBL (exp_hi DBL))%R).
  { assert (W : (8837 * one_val DBL <= 100 * fval DBL (exp_hi DBL))%Z) by (vm_compute; discriminate). apply IZR_le in W. rewrite !mult_IZR, (fval_real DBL K) in W. set (o := IZR (one_val DBL)) in *. nra. }
  assert (LO : (real DBL (exp_lo DBL) < - (8837 / 100))%R).
  { assert (W : (100 * fval DBL (exp_lo DBL) < -8837 * one_val DBL)%Z) by (vm_compute; reflexivity). apply IZR_lt in W. rewrite !mult_IZR, (fval_real DBL K) in W. set (o := IZR (one_val DBL)) in *. nra. }
  destruct (exp64 c Fc CL Bc) as (k & D & A1 & A2 & A3). split; [|split].
  - intros B. assert (c = x) as -> by (destruct CC as [-> |[[-> H]|[-> H]]]; [reflexivity|exfalso; lra|exfalso; lra]). apply A1. apply (n_le _ _ _ D). lra.
  - intros B. assert (c = x) as -> by (destruct CC as [-> |[[-> H]|[-> H]]]; [reflexivity|exfalso; lra|exfalso; lra]). apply A2. apply Z.le_antisymm; [apply (n_le _ _ _ D)|apply (n_ge _ _ _ D)]; lra.
  - intros B. apply A3. apply (n_ge _ _ _ D). destruct CC as [-> |[[-> H]|[-> H]]]; lra.
Qed.
Print Assumptions C59_float32_partial.
Print Assumptions C59_float64_refuted.
(** hypotheses: arrays of nine equal numbers: float32 1, -100 and 88.5; float64 0, 0.5 and 2 *)
Definition cells (sz p : Z) : bytes := fun b => (p / 2 ^ (8 * (b mod sz))) mod 256.
Lemma cells_ok f p : known f -> contiguous f 4096 8192 9 (cells (fsize f) p) /\ in_groups f 9 3.
Proof.
  intros K. destruct (eight_apart f 9 K eq_refl) as [A B]. split; [split; [lia|]; split; [intros b; apply Z.mod_pos_bound; reflexivity|split; assumption]|].
  destruct K as [-> | ->]; split; vm_compute; congruence.
Qed.
Lemma real_is f x p q : known f -> (0 < q)%Z -> (q * fval f x = p * one_val f)%Z -> real f x = (IZR p / IZR q)%R.
Proof.
  intros K Q H. apply IZR_eq in H. rewrite !mult_IZR, (fval_real f K) in H. pose proof (o_pos f K). apply IZR_lt in Q. set (o := IZR (one_val f)) in *.
  apply Rmult_eq_reg_r with (o * IZR q)%R; [|nra]. replace (IZR p / IZR q * (o * IZR q))%R with (IZR p * o)%R by (field; lra). rewrite <- H. ring.
Qed.
Example C59_nonvacuous : scalar_fun FLT (fun x => x) /\ scalar_fun DBL (fun x => x) /\
  (let e p := elem FLT (cells 4 p) 4096 3 in let ok p := contiguous FLT 4096 8192 9 (cells 4 p) /\ in_groups FLT 9 3 /\ e p = p /\ fin FLT p in
   ok 1065353216 /\ real FLT 1065353216 = (1 / 1)%R /\ ok 3267887104 /\ real FLT 3267887104 = (-100 / 1)%R /\ ok 1118896128 /\ real FLT 1118896128 = (177 / 2)%R) /\
  (let e p := elem DBL (cells 8 p) 4096 3 in let ok p := contiguous DBL 4096 8192 9 (cells 8 p) /\ in_groups DBL 9 3 /\ e p = p /\ fin DBL p in
   ok 0%Z /\ real DBL 0 = (0 / 1)%R /\ ok 4602678819172646912 /\ real DBL 4602678819172646912 = (1 / 2)%R /\ ok 4611686018427387904 /\ real DBL 4611686018427387904 = (2 / 1)%R).
Proof.
  assert (KF : known FLT) by now left. assert (KD : known DBL) by now right.
  assert (OKF : forall p, elem FLT (cells 4 p) 4096 3 = p -> fin FLT p -> contiguous FLT 4096 8192 9 (cells 4 p) /\ in_groups FLT 9 3 /\ elem FLT (cells 4 p) 4096 3 = p /\ fin FLT p) by (intros p E F; destruct (cells_ok FLT p KF); auto).
  assert (OKD : forall p, elem DBL (cells 8 p) 4096 3 = p -> fin DBL p -> contiguous DBL 4096 8192 9 (cells 8 p) /\ in_groups DBL 9 3 /\ elem DBL (cells 8 p) 4096 3 = p /\ fin DBL p) by (intros p E F; destruct (cells_ok DBL p KD); auto).
  assert (FIN : forall f x, known f -> (0 <= x < 2 ^ fwidth f)%Z -> (Z.abs (fval f x) <= max_fin f)%Z -> fin f x) by (intros f x K; apply (fin_of_val f K)).
  split; [intros x H; exact H|]. split; [intros x H; exact H|]. cbv zeta. split.
  - split; [apply OKF; [vm_compute; reflexivity|apply FIN; [exact KF|vm_compute; split; congruence|vm_compute; discriminate]]|].
    split; [apply real_is; [exact KF|reflexivity|vm_compute; reflexivity]|].
    split; [apply OKF; [vm_compute; reflexivity|apply FIN; [exact KF|vm_compute; split; congruence|vm_compute; discriminate]]|].
    split; [apply real_is; [exact KF|reflexivity|vm_compute; reflexivity]|].
    split; [apply OKF; [vm_compute; reflexivity|apply FIN; [exact KF|vm_compute; split; congruence|vm_compute; discriminate]]|].
    apply real_is; [exact KF|reflexivity|vm_compute; reflexivity].
  - split; [apply OKD; [vm_compute; reflexivity|apply FIN; [exact KD|vm_compute; split; congruence|vm_compute; discriminate]]|].
    split; [apply real_is; [exact KD|reflexivity|vm_compute; reflexivity]|].
    split; [apply OKD; [vm_compute; reflexivity|apply FIN; [exact KD|vm_compute; split; congruence|vm_compute; discriminate]]|].
    split; [apply real_is; [exact KD|reflexivity|vm_compute; reflexivity]|].
    split; [apply OKD; [vm_compute; reflexivity|apply FIN; [exact KD|vm_compute; split; congruence|vm_compute; discriminate]]|].
    apply real_is; [exact KD|reflexivity|vm_compute; reflexivity].
Qed.
