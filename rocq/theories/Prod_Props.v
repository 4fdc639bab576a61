(** Prod_Props.v - C82: float64 np.prod, error bound and exactness, unthreaded and for every interleaving of the threaded reduction, down to the
    bytes (RedBytes_Model).  GetReduceMathOpFast MUL, ATOP_DOUBLE: ReduceMathOpFast<double, __m256d, MulOp<double>, MUL_OP_256f64>, ops_binary.cpp:1086. *)
From Coq Require Import Reals Lra.
From Verif Require Import Base Threads_Model Threads_Proofs Threads_Live_Proofs Threads_Props Reduce_Model Reduce_Proofs Reduce_Props
  Jobs_Model Sort_Model Kernel_Model Kernel_Proofs Kernel_Props Float_Model Compare_Model Compare_Proofs Compare_Props Unary_Model Unary_Proofs Unary_Props UnaryVal_Props Round_Model Round_Props
  Arith_Model Arith_Props Trig_Real Trig_Near Sum_Props Ufunc_Model Ufunc_Proofs Ufunc_Kernel_Proofs RedBytes_Model RedBytes_Proofs RedBytes_Call_Proofs RedBytes_Props.
Local Open Scope R_scope.

(** ======== specification ======== *)
(** x 0 * x 1 * ... * x (n - 1) *)
Definition Rprod (x : Z -> R) (n : Z) : R := fold_right Rmult 1 (map x (zrange 0 n)).
(** the largest absolute value of a product of some of the numbers, and the smallest but 0: the product of those above 1, and of those below 1 *)
Definition above (v : R) : R := Rmax 1 (Rabs v).
Definition below (v : R) : R := if Req_EM_T v 0 then 1 else Rmin 1 (Rabs v).
Definition in_range (x : Z -> R) (n : Z) (init : R) : Prop :=
  above init * Rprod (fun i => above (x i)) n <= IZR (2 ^ 1020) /\ / IZR (2 ^ 1020) <= below init * Rprod (fun i => below (x i)) n.
(** [r] is finite and within [k] 2^-52, relatively, of the product [p] *)
Definition prod_within (r : Z) (p : R) (k : Z) : Prop := fin DBL r /\ Rabs (real DBL r - p) * IZR (2 ^ 52) <= IZR k * Rabs p.

(** the elements of [x] and [init] are integers, k 0, ..., k (n - 1) and k0, and no product of some of them has 54 bits or more *)
Definition integers_below (x : Z -> Z) (n init : Z) (k : Z -> Z) (k0 : Z) : Prop :=
  (forall i, (0 <= i < n)%Z -> fin DBL (x i) /\ fval DBL (x i) = (k i * one_val DBL)%Z) /\ fin DBL init /\ fval DBL init = (k0 * one_val DBL)%Z /\
  (Z.max 1 (Z.abs k0) * prod_of (fun i => Z.max 1 (Z.abs (k i))) n < 2 ^ 53)%Z.

(** ======== lemmas ======== *)
Definition quad : Type := R * R * R * nat.
Definition qmul (v w : quad) : quad := let '(p, g, d, c) := v in let '(p', g', d', c') := w in (p * p', g * g', d * d', (c + c')%nat).
Ltac quads := apply f_equal2; [apply f_equal2; [apply f_equal2; ring|ring]|lia].
Definition qone : quad := (1, 1, 1, 0%nat).
Lemma qmul_assoc x y z : qmul x (qmul y z) = qmul (qmul x y) z.
Proof. destruct x as [[[? ?] ?] ?], y as [[[? ?] ?] ?], z as [[[? ?] ?] ?]. cbn. quads. Qed.
Lemma qmul_comm x y : qmul x y = qmul y x.
Proof. destruct x as [[[? ?] ?] ?], y as [[[? ?] ?] ?]. cbn. quads. Qed.
Lemma qmul_one x : qmul qone x = x.
Proof. destruct x as [[[? ?] ?] ?]. cbn. quads. Qed.
Definition leaf (x : Z) : quad := (real DBL x, above (real DBL x), below (real DBL x), 1%nat).
Definition qprod (x : Z -> Z) (n init : Z) : quad :=
  (real DBL init * Rprod (fun i => real DBL (x i)) n, above (real DBL init) * Rprod (fun i => above (real DBL (x i))) n,
   below (real DBL init) * Rprod (fun i => below (real DBL (x i))) n, S (Z.to_nat n)).
Lemma qprod_seq x n init : reduce_seq qmul (fun i => leaf (x i)) n (leaf init) = qprod x n init.
Proof.
  assert (G : forall l (a : quad), fold_left (fun a i => qmul a (leaf (x i))) l a = qmul a
     (fold_right Rmult 1 (map (fun i => real DBL (x i)) l), fold_right Rmult 1 (map (fun i => above (real DBL (x i))) l), fold_right Rmult 1 (map (fun i => below (real DBL (x i))) l), length l)).
  { induction l as [|i l IH]; intros a; cbn [fold_left map fold_right length]; [destruct a as [[[? ?] ?] ?]; cbn; quads|].
    rewrite IH. destruct a as [[[? ?] ?] ?]. cbn. quads. }
  unfold reduce_seq. rewrite G. unfold qprod, leaf, Rprod. cbn [qmul]. rewrite zrange_length. quads.
Qed.
Definition u53 : R := / IZR (2 ^ 53).
Lemma u53_pos : 0 < u53. Proof. unfold u53. apply Rinv_0_lt_compat. apply IZR_lt. reflexivity. Qed.
Lemma u53_val : u53 * IZR (2 ^ 53) = 1. Proof. unfold u53. field. apply not_0_IZR. discriminate. Qed.

Definition good (h : Z) (x : Z) (v : quad) : Prop :=
  let '(p, g, d, c) := v in
  1 <= g /\ 0 < d <= 1 /\ (p = 0 \/ d <= Rabs p <= g) /\ (c = 0%nat -> x = f_one DBL /\ p = 1) /\
  ((1 <= c)%nat -> g <= IZR (2 ^ 1020) -> / IZR (2 ^ 1020) <= d -> (Z.of_nat c <= 2 ^ 50)%Z -> fin DBL x /\ Rabs (real DBL x - p) <= ((1 + u53) ^ (c - 1) - 1) * Rabs p).

Lemma K64 : known DBL. Proof. right. reflexivity. Qed.
Lemma one_ok : fin DBL (f_one DBL) /\ fval DBL (f_one DBL) = one_val DBL /\ f_mul DBL (f_one DBL) (f_one DBL) = f_one DBL.
Proof. split; [split; [split; vm_compute; [discriminate|reflexivity]|vm_compute; discriminate]|]. split; vm_compute; reflexivity. Qed.
Lemma o_pos : 0 < IZR (one_val DBL). Proof. apply IZR_lt. reflexivity. Qed.
Lemma mul_one y : fin DBL y -> fin DBL (f_mul DBL (f_one DBL) y) /\ real DBL (f_mul DBL (f_one DBL) y) = real DBL y.
Proof.
  intros Fy. destruct one_ok as (F1 & V1 & _). destruct (fin_mag DBL K64 y Fy) as (R1 & _ & _).
  destruct (mul_exact DBL K64 (f_one DBL) y (fmag DBL y) F1 Fy R1) as [A E].
  - rewrite V1, Z.abs_mul, (abs_fval DBL K64 y). unfold fabsval. rewrite (Z.abs_eq (one_val DBL)) by (vm_compute; discriminate). apply Z.mul_comm.
  - split; [exact A|]. rewrite V1 in E. unfold real. f_equal. f_equal. assert (N : one_val DBL <> 0%Z) by (vm_compute; discriminate). generalize dependent (one_val DBL). intros. nia.
Qed.
Lemma mul_normal x y : fin DBL x -> fin DBL y -> Rabs (real DBL x * real DBL y) <= Rmax_fin DBL -> 2 * / IZR (2 ^ 1022) <= Rabs (real DBL x * real DBL y) ->
  fin DBL (f_mul DBL x y) /\ Rabs (real DBL (f_mul DBL x y) - real DBL x * real DBL y) <= u53 * Rabs (real DBL x * real DBL y).
Proof.
  intros Fx Fy B L. pose proof o_pos as OP. unfold Rmax_fin, real in *. set (o := one_val DBL) in *.
  assert (E : IZR (fval DBL x) / IZR o * (IZR (fval DBL y) / IZR o) = IZR (fval DBL x * fval DBL y) / (IZR o * IZR o)) by (rewrite mult_IZR; field; lra).
  rewrite E in *. set (v := (fval DBL x * fval DBL y)%Z) in *.
  assert (A : Rabs (IZR v / (IZR o * IZR o)) = IZR (Z.abs v) / (IZR o * IZR o)).
  { unfold Rdiv. rewrite Rabs_mult, <- abs_IZR. f_equal. apply Rabs_pos_eq. left. apply Rinv_0_lt_compat. nra. }
  rewrite A in *.
  assert (B' : (Z.abs v <= max_fin DBL * o)%Z).
  { apply le_IZR. rewrite mult_IZR. apply (Rmult_le_reg_r (/ (IZR o * IZR o))); [apply Rinv_0_lt_compat; nra|]. unfold Rdiv in B. eapply Rle_trans; [exact B|]. right. field. lra. }
  destruct (mul_fin DBL K64 x y Fx Fy B') as [F M]. split; [exact F|]. fold v o in M. set (z := fval DBL (f_mul DBL x y)) in *.
  assert (L' : (2 ^ fbits DBL * o <= Z.abs v)%Z).
  { apply le_IZR. rewrite mult_IZR. assert (EO : IZR o = IZR (2 ^ 52) * IZR (2 ^ 1022)) by (rewrite <- mult_IZR; reflexivity). change (fbits DBL) with 52%Z.
    assert (T : 0 < IZR (2 ^ 1022)) by (apply IZR_lt; reflexivity). set (T0 := IZR (2 ^ 1022)) in *. set (Q := IZR (2 ^ 52)) in *. clearbody T0.
    assert (L2 : 2 * / T0 * (IZR o * IZR o) <= IZR (Z.abs v)).
    { apply (Rmult_le_reg_r (/ (IZR o * IZR o))); [apply Rinv_0_lt_compat; nra|]. unfold Rdiv in L. eapply Rle_trans; [|exact L]. right. field. split; lra. }
    eapply Rle_trans; [|exact L2]. replace (2 * / T0 * (IZR o * IZR o)) with (2 * Q * IZR o) by (rewrite EO; field; lra). assert (0 <= Q) by (apply IZR_le; lia). nra. }
  rewrite Z.max_r in M by exact L'. change (2 * 2 ^ fbits DBL)%Z with (2 ^ 53)%Z in M.
  assert (D : IZR z / IZR o - IZR v / (IZR o * IZR o) = IZR (z * o - v) * / (IZR o * IZR o)) by (rewrite minus_IZR, mult_IZR; field; lra).
  rewrite D, Rabs_mult, <- abs_IZR. rewrite (Rabs_pos_eq (/ _)) by (left; apply Rinv_0_lt_compat; nra). unfold Rdiv. rewrite <- Rmult_assoc. apply Rmult_le_compat_r; [left; apply Rinv_0_lt_compat; nra|].
  apply IZR_le in M. rewrite mult_IZR in M. pose proof u53_val. pose proof u53_pos. set (W := IZR (2 ^ 53)) in *. clearbody W.
  replace (IZR (Z.abs (z * o - v))) with (u53 * (W * IZR (Z.abs (z * o - v)))) by (rewrite <- Rmult_assoc, H; ring). apply Rmult_le_compat_l; lra.
Qed.
Lemma growth_R c : 2 * INR c * u53 <= 1 -> 1 <= (1 + u53) ^ c <= 1 + 2 * INR c * u53.
Proof.
  pose proof u53_pos as U. induction c as [|c IH]; [cbn; lra|]. rewrite S_INR. intros H. assert (H0 : 0 <= INR c) by apply pos_INR. destruct IH as [I1 I2]; [nra|]. cbn [pow]. split; nra.
Qed.
Lemma abs_split a b : Rabs a <= Rabs b + Rabs (a - b).
Proof. replace a with (b + (a - b)) at 1 by ring. apply Rabs_triang. Qed.
Lemma abs_split2 a b : Rabs b - Rabs (a - b) <= Rabs a.
Proof. pose proof (Rabs_triang_inv b (b - a)) as H. replace (b - (b - a)) with a in H by ring. rewrite (Rabs_minus_sym a b). lra. Qed.
Lemma good_mono h h' x v : (0 <= h <= h')%Z -> good h x v -> good h' x v.
Proof. intros _ H. exact H. Qed.
Lemma good_mul h x x' y y' : (0 <= h)%Z -> good h x x' -> good h y y' -> good (h + 1) (f_mul DBL x y) (qmul x' y').
Proof.
  intros _. destruct x' as [[[p g] d] c], y' as [[[p' g'] d'] c']. intros (G1 & D1 & R1 & Z1 & H1) (G2 & D2 & R2 & Z2 & H2). cbn [qmul good].
  assert (PB : forall a b, p <> 0 -> p' <> 0 -> a * b = p * p' -> True) by trivial. clear PB.
  split; [nra|]. split; [nra|]. split.
  { destruct R1 as [->|[R1 R1']]; [left; ring|]. destruct R2 as [->|[R2 R2']]; [left; ring|]. right. rewrite Rabs_mult. pose proof (Rabs_pos p). pose proof (Rabs_pos p'). split; nra. }
  split.
  { intros E. destruct (Z1 ltac:(lia)) as [-> ->]. destruct (Z2 ltac:(lia)) as [-> ->]. split; [exact (proj2 (proj2 one_ok))|ring]. }
  intros C HG HD HC. set (B := IZR (2 ^ 1020)) in *. assert (Bp : 1 < B) by (apply IZR_lt; reflexivity). assert (Bi : / B * B = 1) by (field; lra). assert (Bip : 0 < / B) by (apply Rinv_0_lt_compat; lra).
  assert (HG1 : g <= B) by nra. assert (HG2 : g' <= B) by nra. assert (HD1 : / B <= d) by nra. assert (HD2 : / B <= d') by nra.
  destruct (Nat.eq_dec c 0) as [->|N1].
  { destruct (Z1 eq_refl) as [-> ->]. destruct H2 as [F2 E2]; [lia|lra|lra|lia|]. destruct (mul_one y F2) as [A E]. split; [exact A|]. rewrite E, Rmult_1_l. exact E2. }
  destruct (Nat.eq_dec c' 0) as [->|N2].
  { destruct (Z2 eq_refl) as [-> ->]. destruct H1 as [F1 E1]; [lia|lra|lra|lia|]. rewrite (mul_comm DBL). destruct (mul_one x F1) as [A E]. split; [exact A|]. rewrite E, Rmult_1_r, Nat.add_0_r. exact E1. }
  destruct H1 as [F1 E1]; [lia|lra|lra|lia|]. destruct H2 as [F2 E2]; [lia|lra|lra|lia|]. clear Z1 Z2.
  assert (CU : 2 * INR (c + c' - 1) * u53 <= 1 / 4).
  { assert (I : INR (c + c' - 1) <= IZR (2 ^ 50)). { rewrite INR_IZR_INZ. apply IZR_le. lia. } pose proof u53_pos. unfold u53. assert (E : IZR (2 ^ 53) = 8 * IZR (2 ^ 50)) by (rewrite <- mult_IZR; reflexivity).
    assert (Q : 0 < IZR (2 ^ 50)) by (apply IZR_lt; reflexivity). rewrite E. set (Q0 := IZR (2 ^ 50)) in *. clearbody Q0. apply (Rmult_le_reg_r Q0); [exact Q|].
    replace (2 * INR (c + c' - 1) * / (8 * Q0) * Q0) with (INR (c + c' - 1) / 4) by (field; lra). lra. }
  assert (M : forall k, (k <= c + c' - 1)%nat -> 1 <= (1 + u53) ^ k <= 5 / 4).
  { intros k Hk. apply le_INR in Hk. pose proof u53_pos. pose proof (pos_INR k). destruct (growth_R k) as [A1 A2]; [nra|]. split; [exact A1|]. nra. }
  replace (c + c' - 1)%nat with (S ((c - 1) + (c' - 1))) in * by lia. cbn [pow]. rewrite pow_add.
  destruct (M (c - 1)%nat ltac:(lia)) as [M1 M1']. destruct (M (c' - 1)%nat ltac:(lia)) as [M2 M2']. destruct (M ((c - 1) + (c' - 1))%nat ltac:(lia)) as [M3 M3']. rewrite pow_add in M3, M3'.
  set (q := (1 + u53) ^ (c - 1)) in *. set (q' := (1 + u53) ^ (c' - 1)) in *. set (a := real DBL x) in *. set (b := real DBL y) in *. clearbody q q'.
  assert (AB : Rabs (a * b - p * p') <= (q * q' - 1) * Rabs (p * p')).
  { replace (a * b - p * p') with ((a - p) * (b - p') + (a - p) * p' + p * (b - p')) by ring.
    eapply Rle_trans; [apply Rabs_triang|]. eapply Rle_trans; [apply Rplus_le_compat_r; apply Rabs_triang|]. rewrite !Rabs_mult.
    pose proof (Rabs_pos p). pose proof (Rabs_pos p'). pose proof (Rabs_pos (a - p)). pose proof (Rabs_pos (b - p')). set (P1 := Rabs p) in *. set (P2 := Rabs p') in *. set (e1 := Rabs (a - p)) in *. set (e2 := Rabs (b - p')) in *. clearbody P1 P2 e1 e2.
    assert (T1 : e1 * e2 <= ((q - 1) * P1) * ((q' - 1) * P2)) by (apply Rmult_le_compat; lra). assert (T2 : e1 * P2 <= (q - 1) * P1 * P2) by (apply Rmult_le_compat_r; lra). assert (T3 : P1 * e2 <= P1 * ((q' - 1) * P2)) by (apply Rmult_le_compat_l; lra).
    replace ((q * q' - 1) * (P1 * P2)) with ((q - 1) * P1 * ((q' - 1) * P2) + (q - 1) * P1 * P2 + P1 * ((q' - 1) * P2)) by ring. lra. }
  pose proof u53_pos as U. destruct (Req_dec (p * p') 0) as [P0|PN].
  - rewrite P0, Rabs_R0 in AB. assert (AB0 : a * b = 0). { rewrite Rmult_0_r, Rminus_0_r in AB. pose proof (Rabs_pos (a * b)). destruct (Req_dec (a * b) 0); [assumption|]. pose proof (Rabs_pos_lt (a * b) ltac:(assumption)). lra. }
    assert (V0 : (fval DBL x * fval DBL y = 0)%Z).
    { apply eq_IZR. rewrite mult_IZR. unfold a, b, real in AB0. pose proof o_pos as OP. set (o := IZR (one_val DBL)) in *. clearbody o. replace (IZR (fval DBL x) * IZR (fval DBL y)) with (IZR (fval DBL x) / o * (IZR (fval DBL y) / o) * (o * o)) by (field; lra). rewrite AB0. ring. }
    destruct (mul_exact DBL K64 x y 0 F1 F2) as [A E]; [vm_compute; split; [discriminate|reflexivity]|rewrite V0; vm_compute; reflexivity|]. split; [exact A|].
    assert (VZ : fval DBL (f_mul DBL x y) = 0%Z). { rewrite V0 in E. assert (N : one_val DBL <> 0%Z) by (vm_compute; discriminate). generalize dependent (one_val DBL). intros. nia. }
    unfold real. rewrite VZ, P0. unfold Rdiv. rewrite Rmult_0_l, Rminus_0_r, Rabs_R0. lra.
  - destruct R1 as [->|[R1 R1']]; [exfalso; apply PN; ring|]. destruct R2 as [->|[R2 R2']]; [exfalso; apply PN; ring|].
    assert (PD : d * d' <= Rabs (p * p') <= g * g'). { rewrite Rabs_mult. pose proof (Rabs_pos p). pose proof (Rabs_pos p'). split; nra. }
    pose proof (abs_split (a * b) (p * p')) as S1. pose proof (abs_split2 (a * b) (p * p')) as S2. set (v := a * b) in *. set (w := p * p') in *. set (s := q * q') in *.
    assert (V1 : Rabs v <= B * (5 / 4)). { assert (Rabs v <= s * Rabs w) by lra. assert (Rabs w <= B) by lra. pose proof (Rabs_pos w). nra. }
    assert (V2 : / B * (3 / 4) <= Rabs v). { assert ((2 - s) * Rabs w <= Rabs v) by lra. assert (/ B <= Rabs w) by lra. nra. }
    destruct (mul_normal x y F1 F2) as [A E].
    + fold a b v. eapply Rle_trans; [exact V1|]. unfold B, Rmax_fin. pose proof o_pos as OP. apply (Rmult_le_reg_r (4 * IZR (one_val DBL))); [lra|].
      replace (IZR (max_fin DBL) / IZR (one_val DBL) * (4 * IZR (one_val DBL))) with (IZR 4 * IZR (max_fin DBL)) by (field; lra).
      replace (IZR (2 ^ 1020) * (5 / 4) * (4 * IZR (one_val DBL))) with (IZR 5 * IZR (2 ^ 1020) * IZR (one_val DBL)) by field. rewrite <- !mult_IZR. apply IZR_le. vm_compute. discriminate.
    + fold a b v. eapply Rle_trans; [|exact V2]. assert (E4 : IZR (2 ^ 1022) = 4 * B) by (unfold B; rewrite <- mult_IZR; reflexivity). rewrite E4. replace (2 * / (4 * B)) with (/ B * (1 / 2)) by (field; lra). nra.
    + fold a b v in E. split; [exact A|]. set (z := real DBL (f_mul DBL x y)) in *. clearbody z.
      pose proof (Rabs_triang (z - v) (v - w)) as T. replace (z - v + (v - w)) with (z - w) in T by ring.
      assert (Rabs v <= s * Rabs w) by lra. pose proof (Rabs_pos w). assert (u53 * Rabs v <= u53 * (s * Rabs w)) by (apply Rmult_le_compat_l; lra).
      replace (((1 + u53) * s - 1) * Rabs w) with (u53 * (s * Rabs w) + (s - 1) * Rabs w) by ring. lra.
Qed.
Lemma good_leaf h x : fin DBL x -> good h x (leaf x).
Proof.
  intros F. unfold leaf, good, above, below. set (a := real DBL x). split; [apply Rmax_l|].
  destruct (Req_EM_T a 0) as [E|N].
  - split; [lra|]. split; [now left|]. split; [discriminate|]. intros _ _ _ _. split; [exact F|]. fold a. rewrite Rminus_diag_eq, Rabs_R0 by reflexivity. cbn [Nat.sub pow]. lra.
  - pose proof (Rabs_pos_lt a N) as P. split; [split; [apply Rmin_pos; lra|apply Rmin_l]|]. split; [right; split; [apply Rmin_r|apply Rmax_r]|]. split; [discriminate|].
    intros _ _ _ _. split; [exact F|]. fold a. rewrite Rminus_diag_eq, Rabs_R0 by reflexivity. cbn [Nat.sub pow]. lra.
Qed.
Lemma good_one h : good h (f_one DBL) qone.
Proof. unfold good, qone. split; [lra|]. split; [lra|]. split; [right; rewrite Rabs_R1; lra|]. split; [auto|]. intros C. inversion C. Qed.
Lemma good_within x (X : Z -> Z) n init h : (0 <= n < 2 ^ 50)%Z -> good h x (qprod X n init) -> in_range (fun i => real DBL (X i)) n (real DBL init) ->
  prod_within x (real DBL init * Rprod (fun i => real DBL (X i)) n) n.
Proof.
  intros Hn (_ & _ & _ & _ & H) [R1 R2]. destruct H as [F E]; [lia|exact R1|exact R2|lia|]. split; [exact F|]. set (p := real DBL init * _) in *. set (e := Rabs (real DBL x - p)) in *.
  cbn [Nat.sub] in E. rewrite Nat.sub_0_r in E. pose proof u53_pos. assert (EN : INR (Z.to_nat n) = IZR n) by (rewrite INR_IZR_INZ, Z2Nat.id by lia; reflexivity).
  assert (W : u53 * (2 * IZR (2 ^ 52)) = 1) by (rewrite <- mult_IZR; exact u53_val). set (Q := IZR (2 ^ 52)) in *.
  destruct (growth_R (Z.to_nat n)) as [_ G].
  { rewrite EN. assert (IZR n <= Q) by (apply IZR_le; lia). assert (0 <= IZR n) by (apply IZR_le; lia). nra. }
  rewrite EN in G. pose proof (Rabs_pos p). assert (Qp : 0 < Q) by (apply IZR_lt; reflexivity). clearbody Q.
  assert (E2 : e <= 2 * IZR n * u53 * Rabs p) by (eapply Rle_trans; [exact E|]; apply Rmult_le_compat_r; lra).
  apply (Rle_trans _ (2 * IZR n * u53 * Rabs p * Q)); [apply Rmult_le_compat_r; lra|]. right. replace (2 * IZR n * u53 * Rabs p * Q) with (IZR n * Rabs p * (u53 * (2 * Q))) by ring. rewrite W. ring.
Qed.

(** the reduction np.prod runs on float64: _pnumpy.cpp:651-698; chunks on threads start from 1.0 *)
Definition prod64 (inp stride init : Z) : redcall Z := mkRed Z inp stride init (Some (f_one DBL)) (ReduceMathOpFast (f_mul DBL) 4 8).
Lemma q_kernel rd inp stride init n : (0 <= n)%Z -> ReduceMathOpFast qmul 4 8 (fun a => leaf (rd a)) inp (leaf init) n stride = qprod (fun i => rd (inp + i * stride)%Z) n init.
Proof. intros Hn. rewrite (C12_vector_reduce_is_fold qmul qmul_assoc qmul_comm) by lia. exact (qprod_seq (fun i => rd (inp + i * stride)%Z) n init). Qed.
Lemma q_threaded rd inp stride init n W zz junk wild sched part : (0 < n)%Z -> (0 <= W)%Z ->
  let r := mkRed quad inp stride (leaf init) (Some qone) (ReduceMathOpFast qmul 4 8) in
  returned r (fun a => leaf (rd a)) n W zz junk sched part -> finish_kernel r 8 n wild part = qprod (fun i => rd (inp + i * stride)%Z) n init.
Proof.
  intros Hn HW r Hr. pose proof (C10_general qmul (ReduceMathOpFast qmul 4 8) inp stride (leaf init) (Some qone) (fun a => leaf (rd a)) n W zz junk wild sched part 8 qmul_assoc qmul_comm) as G. cbv zeta in G. unfold r. rewrite G; clear G; try lia; try assumption.
  - exact (qprod_seq (fun i => rd (inp + i * stride)%Z) n init).
  - intros. apply (C12_vector_reduce_is_fold qmul qmul_assoc qmul_comm); lia.
  - intros l. rewrite qmul_comm, qmul_one. reflexivity.
Qed.
Lemma prod_unthreaded rd inp stride init n : (0 <= n < 2 ^ 50)%Z -> let x := fun i => rd (inp + i * stride)%Z in
  (forall i, (0 <= i < n)%Z -> fin DBL (x i)) -> fin DBL init -> in_range (fun i => real DBL (x i)) n (real DBL init) ->
  prod_within (reduce_unthreaded (prod64 inp stride init) rd n) (real DBL init * Rprod (fun i => real DBL (x i)) n) n.
Proof.
  intros Hn x Hx Hi HR. unfold reduce_unthreaded, prod64. cbn [r_kernel r_in r_init r_stride].
  pose proof (rel_kernel (f_mul DBL) qmul good good_mono good_mul 4 8 rd (fun a => leaf (rd a)) inp init (leaf init) n stride 0 ltac:(lia) ltac:(lia) ltac:(lia) ltac:(lia)
    (fun i Hi => good_leaf 0 _ (Hx i Hi)) (good_leaf 0 _ Hi)) as W.
  rewrite q_kernel in W by lia. exact (good_within _ x n init _ Hn W HR).
Qed.
Lemma prod_threaded rd inp stride init n W zz junk wild sched part : (0 < n < 2 ^ 50)%Z -> (0 <= W)%Z -> let x := fun i => rd (inp + i * stride)%Z in
  (forall i, (0 <= i < n)%Z -> fin DBL (x i)) -> fin DBL init -> in_range (fun i => real DBL (x i)) n (real DBL init) ->
  returned (prod64 inp stride init) rd n W zz junk sched part ->
  prod_within (finish_kernel (prod64 inp stride init) 8 n wild part) (real DBL init * Rprod (fun i => real DBL (x i)) n) n.
Proof.
  intros Hn HW x Hx Hi HR Ret.
  set (r' := mkRed quad inp stride (leaf init) (Some qone) (ReduceMathOpFast qmul 4 8)).
  destruct (demo_returned r' (fun a => leaf (rd a)) n W zz (fun _ => qone) ltac:(lia) HW) as (sched' & part' & Ret').
  pose proof (rel_threaded (f_mul DBL) qmul good good_mono good_mul 4 8 rd (fun a => leaf (rd a)) inp stride init (leaf init) (f_one DBL) qone n W zz junk (fun _ => qone) wild (fun _ => qone) sched sched' part part'
    ltac:(lia) ltac:(lia) ltac:(lia) HW (fun i Hi => good_leaf 0 _ (Hx i Hi)) (good_leaf 0 _ Hi) (good_one 0) Ret Ret' 16384%Z) as T.
  unfold r' in Ret'. rewrite (q_threaded rd inp stride init n W zz _ _ _ _ ltac:(lia) HW Ret') in T. refine (good_within _ x n init _ ltac:(lia) (T _) HR).
  intros k Hk. destruct (nesting_full k stride ltac:(lia)). lia.
Qed.

(** integers *)
Definition Zgood (h : Z) (x : Z) (v : Z * Z) : Prop :=
  (1 <= snd v /\ Z.abs (fst v) <= snd v /\ (snd v < 2 ^ 53 -> fin DBL x /\ fval DBL x = fst v * one_val DBL))%Z.
Definition zmul (v w : Z * Z) : Z * Z := (fst v * fst w, snd v * snd w)%Z.
Lemma zmul_assoc x y z : zmul x (zmul y z) = zmul (zmul x y) z.
Proof. unfold zmul. cbn [fst snd]. f_equal; ring. Qed.
Lemma zmul_comm x y : zmul x y = zmul y x.
Proof. unfold zmul. f_equal; ring. Qed.
Lemma zgood_mono h h' x v : (0 <= h <= h')%Z -> Zgood h x v -> Zgood h' x v.
Proof. intros _ H. exact H. Qed.
Lemma zgood_mul h x x' y y' : (0 <= h)%Z -> Zgood h x x' -> Zgood h y y' -> Zgood (h + 1) (f_mul DBL x y) (zmul x' y').
Proof.
  intros _ (G1 & A1 & H1) (G2 & A2 & H2). unfold Zgood, zmul. cbn [fst snd]. destruct x' as [k g], y' as [k' g']. cbn [fst snd] in *.
  assert (A : (Z.abs (k * k') <= g * g')%Z) by (rewrite Z.abs_mul; nia). split; [nia|]. split; [exact A|]. intros B.
  destruct H1 as [F1 E1]; [nia|]. destruct H2 as [F2 E2]; [nia|].
  assert (O : one_val DBL = (2 ^ 1074)%Z) by reflexivity. assert (OP : (0 < one_val DBL)%Z) by reflexivity.
  destruct (repr DBL K64 1074 ltac:(lia) (Z.abs (k * k'))) as (g0 & R0 & V0).
  - change (2 * 2 ^ fbits DBL)%Z with (2 ^ 53)%Z. lia.
  - assert (M : (2 ^ 53 * 2 ^ 1074 <= max_fin DBL)%Z) by (vm_compute; discriminate). generalize dependent (2 ^ 1074)%Z. intros. nia.
  - destruct (mul_exact DBL K64 x y g0 F1 F2 R0) as [F E].
    + rewrite V0, E1, E2, <- O. rewrite !Z.abs_mul. rewrite (Z.abs_eq (one_val DBL)) by lia. ring.
    + split; [exact F|]. rewrite E1, E2 in E. generalize dependent (one_val DBL). intros. nia.
Qed.
Definition zprod (k : Z -> Z) (n k0 : Z) : Z * Z := (k0 * prod_of k n, Z.max 1 (Z.abs k0) * prod_of (fun i => Z.max 1 (Z.abs (k i))) n)%Z.
Lemma zprod_seq k n k0 : reduce_seq zmul (fun i => (k i, Z.max 1 (Z.abs (k i)))) n (k0, Z.max 1 (Z.abs k0)) = zprod k n k0.
Proof.
  unfold reduce_seq, zprod, prod_of. generalize (zrange 0 n) as l. generalize (Z.max 1 (Z.abs k0)) as g0. intros g0 l. revert k0 g0. induction l as [|i l IH]; intros k0 g0; cbn [fold_left map fold_right]; [f_equal; ring|].
  change (zmul (k0, g0) (k i, Z.max 1 (Z.abs (k i)))) with ((k0 * k i)%Z, (g0 * Z.max 1 (Z.abs (k i)))%Z). rewrite IH. f_equal; ring.
Qed.

Lemma zgood_leaf h x k : fin DBL x -> fval DBL x = (k * one_val DBL)%Z -> Zgood h x (k, Z.max 1 (Z.abs k)).
Proof. intros F E. unfold Zgood. cbn [fst snd]. split; [lia|]. split; [lia|auto]. Qed.
Lemma seq_ext {T} (op : T -> T -> T) (x y : Z -> T) n a : (forall i, (0 <= i < n)%Z -> x i = y i) -> reduce_seq op x n a = reduce_seq op y n a.
Proof.
  intros H. unfold reduce_seq. assert (G : forall i, In i (zrange 0 n) -> x i = y i) by (intros i Hi; apply zrange_In in Hi; now apply H). clear H. revert a.
  induction (zrange 0 n) as [|i l IH]; intros a; [reflexivity|]. cbn [fold_left]. rewrite (G i) by now left. apply IH. intros j Hj. apply G. now right.
Qed.
Lemma int_unthreaded rd inp stride init n k k0 : (0 <= n)%Z -> integers_below (fun i => rd (inp + i * stride)%Z) n init k k0 ->
  let r := reduce_unthreaded (prod64 inp stride init) rd n in fin DBL r /\ fval DBL r = (k0 * prod_of k n * one_val DBL)%Z.
Proof.
  intros Hn (Hx & Fi & Ei & B) r. unfold r, reduce_unthreaded, prod64. cbn [r_kernel r_in r_init r_stride].
  set (rd' := fun a => let c := (fval DBL (rd a) / one_val DBL)%Z in (c, Z.max 1 (Z.abs c))).
  assert (RD : forall i, (0 <= i < n)%Z -> rd' (inp + i * stride)%Z = (k i, Z.max 1 (Z.abs (k i)))).
  { intros i Hk. unfold rd'. cbv zeta. destruct (Hx i Hk) as [_ E]. rewrite E, Z.div_mul by (vm_compute; discriminate). reflexivity. }
  pose proof (rel_kernel (f_mul DBL) zmul Zgood zgood_mono zgood_mul 4 8 rd rd' inp init (k0, Z.max 1 (Z.abs k0)) n stride 0 ltac:(lia) ltac:(lia) ltac:(lia) ltac:(lia)) as W.
  rewrite (C12_vector_reduce_is_fold zmul zmul_assoc zmul_comm) in W by lia. fold (reduce_seq zmul (fun i => rd' (inp + i * stride)%Z) n (k0, Z.max 1 (Z.abs k0))) in W.
  rewrite (seq_ext zmul _ (fun i => (k i, Z.max 1 (Z.abs (k i)))) n _ RD), zprod_seq in W.
  destruct W as (_ & _ & W); [|now apply zgood_leaf|exact (W B)]. intros i Hk. rewrite RD by exact Hk. destruct (Hx i Hk). now apply zgood_leaf.
Qed.
Lemma int_threaded rd inp stride init n k k0 W zz junk wild sched part : (0 < n)%Z -> (0 <= W)%Z -> integers_below (fun i => rd (inp + i * stride)%Z) n init k k0 ->
  returned (prod64 inp stride init) rd n W zz junk sched part ->
  let r := finish_kernel (prod64 inp stride init) 8 n wild part in fin DBL r /\ fval DBL r = (k0 * prod_of k n * one_val DBL)%Z.
Proof.
  intros Hn HW (Hx & Fi & Ei & B) Ret r. unfold r. clear r.
  set (rd' := fun a => let c := (fval DBL (rd a) / one_val DBL)%Z in (c, Z.max 1 (Z.abs c))).
  assert (RD : forall i, (0 <= i < n)%Z -> rd' (inp + i * stride)%Z = (k i, Z.max 1 (Z.abs (k i)))).
  { intros i Hk. unfold rd'. cbv zeta. destruct (Hx i Hk) as [_ E]. rewrite E, Z.div_mul by (vm_compute; discriminate). reflexivity. }
  set (i0 := (k0, Z.max 1 (Z.abs k0))). set (r' := mkRed (Z * Z) inp stride i0 (Some (1, 1)%Z) (ReduceMathOpFast zmul 4 8)).
  destruct (demo_returned r' rd' n W zz (fun _ => (1, 1)%Z) ltac:(lia) HW) as (sched' & part' & Ret').
  pose proof (rel_threaded (f_mul DBL) zmul Zgood zgood_mono zgood_mul 4 8 rd rd' inp stride init i0 (f_one DBL) (1, 1)%Z n W zz junk (fun _ => (1, 1)%Z) wild (fun _ => (1, 1)%Z) sched sched' part part'
    ltac:(lia) ltac:(lia) ltac:(lia) HW) as T. cbv zeta in T.
  assert (E' : finish_kernel r' 8 n (fun _ => (1, 1)%Z) part' = zprod k n k0).
  { pose proof (C10_general zmul (ReduceMathOpFast zmul 4 8) inp stride i0 (Some (1, 1)%Z) rd' n W zz (fun _ => (1, 1)%Z) (fun _ => (1, 1)%Z) sched' part' 8 zmul_assoc zmul_comm) as G. cbv zeta in G. unfold r'. rewrite G; clear G; try lia; try assumption.
    - fold (reduce_seq zmul (fun i => rd' (inp + i * stride)%Z) n i0). rewrite (seq_ext zmul _ (fun i => (k i, Z.max 1 (Z.abs (k i)))) n _ RD). apply zprod_seq.
    - intros. apply (C12_vector_reduce_is_fold zmul zmul_assoc zmul_comm); lia.
    - intros l. unfold zmul at 1. destruct (fold_left _ l i0). cbn [fst snd]. f_equal; ring. }
  unfold r' in E', Ret'. rewrite E' in T. refine (proj2 (proj2 (T _ _ _ Ret Ret' 16384%Z _)) B).
  - intros i Hk. rewrite RD by exact Hk. destruct (Hx i Hk). now apply zgood_leaf.
  - now apply zgood_leaf.
  - destruct one_ok as (F1 & V1 & _). apply (zgood_leaf 0 (f_one DBL) 1); [exact F1|]. rewrite V1. lia.
  - intros q Hq. destruct (nesting_full q stride ltac:(lia)). lia.
Qed.

(** ======== C82 ======== *)
(** np.prod of float64 in memory, alone or on threads with any interleaving: where no product of some of the elements leaves the range of normal numbers, the
    answer is the product with at most n rounding errors. *)
Theorem C82_prod :
  forall (o ov : Z -> Z -> Z) (at_ : gvar -> Z) (ip2 stride op1 buf n : Z) (m : bytes),
    dtable FMUL = Some (o, ov) -> (0 <= n < 2 ^ 50)%Z -> bytes_ok m -> globals_in at_ m ->
    let k := RFast o ov in let pstart := start_ptr at_ MUL ADouble op1 in own_buffer 8 ip2 stride op1 buf pstart n ->
    let x := fun i => ld 8 m (ip2 + i * stride) in let init := ld 8 m op1 in
    (forall i, (0 <= i < n)%Z -> fin DBL (x i)) -> fin DBL init -> in_range (fun i => real DBL (x i)) n (real DBL init) ->
    forall h m', red_ends k 8 ip2 stride op1 buf pstart n h m m' ->
    prod_within (ld 8 m' op1) (real DBL init * Rprod (fun i => real DBL (x i)) n) n.
Proof.
  intros o ov at_ ip2 stride op1 buf n m Hd Hn Hm HG k pstart Hb x init Hx Hi HR h m' H.
  destruct (float_call FMUL o ov at_ ip2 stride op1 buf n m Hd ltac:(lia) Hm Hb) as [A _]. cbn [ufn_of] in A. fold k pstart in A.
  rewrite (proj1 (proj2 (A h) m' H)). assert (E0 : ld 8 m pstart = f_one DBL) by exact (dstart_value at_ FMUL m op1 HG).
  destruct h as [|T zz sched]; cbn [call_value].
  - exact (prod_unthreaded (ld 8 m) ip2 stride init n ltac:(lia) Hx Hi HR).
  - destruct H as (Hbig & _). change WORK_ITEM_BIG with 65536%Z in Hbig. rewrite E0.
    destruct (threaded_finish k (f_mul DBL) 8 (ld 8 m) ip2 stride (f_one DBL) init n ltac:(right; right; right; reflexivity) ltac:(lia)) as (p & sched' & R & E).
    change (fscalar FMUL DBL) with (f_mul DBL). fold init. rewrite <- E. apply (prod_threaded (ld 8 m) ip2 stride init n 0 false (fun _ => 0%Z) (fun _ => 0%Z) sched' p ltac:(lia) ltac:(lia) Hx Hi HR). exact R.
Qed.
Print Assumptions C82_prod.

(** ... and exact for integers while no product of some of them has 54 bits or more *)
Theorem C82_prod_exact :
  forall (o ov : Z -> Z -> Z) (at_ : gvar -> Z) (ip2 stride op1 buf n : Z) (m : bytes) (c : Z -> Z) (c0 : Z),
    dtable FMUL = Some (o, ov) -> (0 <= n)%Z -> bytes_ok m -> globals_in at_ m ->
    let k := RFast o ov in let pstart := start_ptr at_ MUL ADouble op1 in own_buffer 8 ip2 stride op1 buf pstart n ->
    integers_below (fun i => ld 8 m (ip2 + i * stride)) n (ld 8 m op1) c c0 ->
    forall h m', red_ends k 8 ip2 stride op1 buf pstart n h m m' ->
    fin DBL (ld 8 m' op1) /\ fval DBL (ld 8 m' op1) = (c0 * prod_of c n * one_val DBL)%Z.
Proof.
  intros o ov at_ ip2 stride op1 buf n m c c0 Hd Hn Hm HG k pstart Hb HI h m' H.
  destruct (float_call FMUL o ov at_ ip2 stride op1 buf n m Hd ltac:(lia) Hm Hb) as [A _]. cbn [ufn_of] in A. fold k pstart in A.
  rewrite (proj1 (proj2 (A h) m' H)). assert (E0 : ld 8 m pstart = f_one DBL) by exact (dstart_value at_ FMUL m op1 HG).
  destruct h as [|T zz sched]; cbn [call_value].
  - exact (int_unthreaded (ld 8 m) ip2 stride (ld 8 m op1) n c c0 Hn HI).
  - destruct H as (Hbig & _). change WORK_ITEM_BIG with 65536%Z in Hbig. rewrite E0.
    destruct (threaded_finish k (f_mul DBL) 8 (ld 8 m) ip2 stride (f_one DBL) (ld 8 m op1) n ltac:(right; right; right; reflexivity) ltac:(lia)) as (p & sched' & R & E).
    change (fscalar FMUL DBL) with (f_mul DBL). rewrite <- E. exact (int_threaded (ld 8 m) ip2 stride (ld 8 m op1) n c c0 0 false (fun _ => 0%Z) (fun _ => 0%Z) sched' p ltac:(lia) ltac:(lia) HI R).
Qed.
Print Assumptions C82_prod_exact.

(** Without [in_range] the claim is false even where the running product never leaves 2^-1000 .. 2^1000: sixteen elements whose product, taken in
    order, is exactly 1 come out as NaN, lane 0 overflowing to infinity and lane 1 vanishing. *)
Definition swinging (i : Z) : Z := (if (i =? 0) || (i =? 8) then 2023 * 2 ^ 52 else if (i =? 1) || (i =? 9) then 23 * 2 ^ 52 else f_one DBL)%Z.
Theorem C82_reordered_refuted :
  (forall i, (0 <= i < 16)%Z -> fin DBL (swinging i)) /\
  (forall n, In n (zrange 0 17) -> In (reduce_seq (f_mul DBL) swinging n (f_one DBL)) [f_one DBL; 2023 * 2 ^ 52]%Z) /\
  reduce_seq (f_mul DBL) swinging 16 (f_one DBL) = f_one DBL /\
  is_nan DBL (reduce_unthreaded (prod64 0 8 (f_one DBL)) (fun a => swinging (a / 8)) 16) = true.
Proof.
  split; [|split; [|split]].
  - intros i Hi. assert (H : forallb (fun i => (0 <=? swinging i) && (swinging i <? 2 ^ 64) && negb (fexp DBL (swinging i) =? emax DBL))%Z (zrange 0 16) = true) by (vm_compute; reflexivity).
    rewrite forallb_forall in H. specialize (H i ltac:(apply zrange_In; lia)). apply andb_prop in H. destruct H as [H H3]. apply andb_prop in H. destruct H as [H1 H2].
    apply Z.leb_le in H1. apply Z.ltb_lt in H2. apply Bool.negb_true_iff, Z.eqb_neq in H3. split; [split; assumption|exact H3].
  - intros n Hn. assert (H : forallb (fun n => let r := reduce_seq (f_mul DBL) swinging n (f_one DBL) in (r =? f_one DBL) || (r =? 2023 * 2 ^ 52))%Z (zrange 0 17) = true) by (vm_compute; reflexivity).
    rewrite forallb_forall in H. specialize (H n Hn). cbv zeta in H. cbn [In]. lia.
  - vm_compute. reflexivity.
  - vm_compute. reflexivity.
Qed.

(** The hypotheses are met, on threads, by 70000 elements of which seven are 3 and the others 1: the answer is exactly 2187. *)
Local Open Scope Z_scope.
Lemma small_ints x n init k : (forall i, 0 <= i < n -> fin DBL (x i) /\ fval DBL (x i) = k i * one_val DBL) -> (forall i, 1 <= k i) ->
  fin DBL init /\ fval DBL init = 1 * one_val DBL -> prod_of k n < 2 ^ 53 ->
  integers_below x n init k 1 /\ in_range (fun i => real DBL (x i)) n (real DBL init).
Proof.
  intros E Hk F1 P. split.
  { split; [exact E|]. split; [apply F1|]. split; [apply F1|].
    assert (H : prod_of (fun i => Z.max 1 (Z.abs (k i))) n = prod_of k n) by (unfold prod_of; f_equal; apply map_ext; intros i; specialize (Hk i); lia).
    rewrite H. change (Z.max 1 (Z.abs 1)) with 1. rewrite Z.mul_1_l. exact P. }
  assert (RV : forall y c, fval DBL y = c * one_val DBL -> real DBL y = IZR c).
  { intros y c H. unfold real. rewrite H, mult_IZR. field. apply not_0_IZR. discriminate. }
  assert (A1 : forall c, (1 <= c) -> above (IZR c) = IZR c /\ below (IZR c) = 1%R).
  { intros c Hc. unfold above, below. apply IZR_le in Hc. rewrite (Rabs_right (IZR c)) by lra. split; [apply Rmax_right; lra|]. destruct (Req_EM_T (IZR c) 0); [lra|]. apply Rmin_left; lra. }
  assert (R : forall l, (forall i, In i l -> 0 <= i < n) ->
      fold_right Rmult 1%R (map (fun i => above (real DBL (x i))) l) = IZR (fold_right Z.mul 1 (map k l)) /\
      fold_right Rmult 1%R (map (fun i => below (real DBL (x i))) l) = 1%R).
  { induction l as [|i l IH]; intros Hl; cbn [map fold_right]; [split; reflexivity|]. destruct IH as [-> ->]; [intros; apply Hl; now right|].
    destruct (E i (Hl i (or_introl eq_refl))) as [_ V]. rewrite (RV _ _ V). destruct (A1 (k i) (Hk i)) as [-> ->]. rewrite <- mult_IZR. split; [reflexivity|ring]. }
  destruct (R (zrange 0 n) (fun i H => proj1 (zrange_In 0 n i) H)) as [R1 R2]. unfold in_range, Rprod. rewrite R1, R2, (RV _ 1 (proj2 F1)).
  destruct (A1 1 ltac:(lia)) as [-> ->]. fold (prod_of k n). split.
  - rewrite Rmult_1_l. apply IZR_le. assert (2 ^ 53 <= 2 ^ 1020) by (vm_compute; discriminate). lia.
  - rewrite Rmult_1_l. assert (H : (/ IZR (2 ^ 1020) <= / 1)%R) by (apply Rinv_le_contravar; [lra|apply IZR_le; vm_compute; discriminate]). rewrite Rinv_1 in H. exact H.
Qed.
Definition demo_elem (i : Z) : Z := if i mod 10000 =? 0 then 4613937818241073152 else 4607182418800017408.
Definition demo_factor (i : Z) : Z := if i mod 10000 =? 0 then 3 else 1.
Definition demo_prod (a : Z) : Z := if a <? 1000000 then (demo_elem (a / 8) / 2 ^ (8 * (a mod 8))) mod 256 else demo_mem a.
Lemma demo_value : prod_of demo_factor 70000 = 2187.
Proof. vm_compute. reflexivity. Qed.
Lemma demo_ones : fin DBL (ld 8 demo_prod 600000) /\ fval DBL (ld 8 demo_prod 600000) = 1 * one_val DBL.
Proof.
  assert (X0 : ld 8 demo_prod 600000 = 4607182418800017408) by (vm_compute; reflexivity). rewrite X0.
  split; [split; [split; [lia|reflexivity]|vm_compute; discriminate]|vm_compute; reflexivity].
Qed.
Lemma demo_threes i : 0 <= i < 70000 -> fin DBL (ld 8 demo_prod (0 + i * 8)) /\ fval DBL (ld 8 demo_prod (0 + i * 8)) = demo_factor i * one_val DBL.
Proof.
  intros Hi. assert (S : forall k, 0 <= k < 8 -> demo_prod (0 + i * 8 + k) = (demo_elem i / 2 ^ (8 * k)) mod 256).
  { intros k Hk. unfold demo_prod. replace (0 + i * 8 + k <? 1000000) with true by lia. replace (0 + i * 8 + k) with (k + i * 8) by lia. rewrite Z.div_add, Z.mod_add by lia. rewrite (Z.div_small k 8), (Z.mod_small k 8) by lia. reflexivity. }
  assert (X : ld 8 demo_prod (0 + i * 8) = demo_elem i).
  { transitivity (ld 8 (fun k => (demo_elem i / 2 ^ (8 * k)) mod 256) 0).
    - unfold ld. change (Z.to_nat 8) with 8%nat. cbn [ldn]. repeat f_equal; try lia; rewrite <- S by lia; f_equal; lia.
    - unfold demo_elem. destruct (i mod 10000 =? 0); vm_compute; reflexivity. }
  rewrite X. unfold demo_elem, demo_factor. destruct (i mod 10000 =? 0); (split; [split; [split; [lia|reflexivity]|vm_compute; discriminate]|vm_compute; reflexivity]).
Qed.
Lemma demo_both : let x := fun i => ld 8 demo_prod (0 + i * 8) in let init := ld 8 demo_prod 600000 in
  integers_below x 70000 init demo_factor 1 /\ in_range (fun i => real DBL (x i)) 70000 (real DBL init).
Proof.
  exact (small_ints (fun i => ld 8 demo_prod (0 + i * 8)) 70000 (ld 8 demo_prod 600000) demo_factor demo_threes
    (fun i => match i mod 10000 =? 0 as b return 1 <= (if b then 3 else 1) with true => ltac:(lia) | false => ltac:(lia) end) demo_ones ltac:(rewrite demo_value; reflexivity)).
Qed.
Lemma demo_globals : globals_in demo_at demo_prod.
Proof. intros g k Hk. unfold demo_prod. replace (demo_at g + k <? 1000000) with false by (destruct g; cbn [demo_at]; lia). exact (proj1 C78_nonvacuous g k Hk). Qed.
Lemma demo_bytes : bytes_ok demo_prod.
Proof. intros a. unfold demo_prod. destruct (a <? 1000000); [apply Z.mod_pos_bound; lia|exact (proj1 (proj2 C78_nonvacuous) a)]. Qed.
Lemma demo_own : own_buffer 8 0 8 600000 700000 (start_ptr demo_at MUL ADouble 600000) 70000.
Proof. unfold own_buffer. change (chunks_of 70000) with 5. cbn [start_ptr GetReduceStartVal demo_at]. repeat split; try lia; intros; lia. Qed.
Example C82_nonvacuous :
  globals_in demo_at demo_prod /\ bytes_ok demo_prod /\
  own_buffer 8 0 8 600000 700000 (start_ptr demo_at MUL ADouble 600000) 70000 /\
  integers_below (fun i => ld 8 demo_prod (0 + i * 8)) 70000 (ld 8 demo_prod 600000) demo_factor 1 /\
  in_range (fun i => real DBL (ld 8 demo_prod (0 + i * 8))) 70000 (real DBL (ld 8 demo_prod 600000)) /\
  exists o ov sched m', dtable FMUL = Some (o, ov) /\ red_ends (RFast o ov) 8 0 8 600000 700000 (start_ptr demo_at MUL ADouble 600000) 70000 (Threaded 3 true sched) demo_prod m' /\
    fval DBL (ld 8 m' 600000) = 2187 * one_val DBL.
Proof.
  split; [exact demo_globals|]. split; [exact demo_bytes|]. split; [exact demo_own|]. split; [exact (proj1 demo_both)|]. split; [exact (proj2 demo_both)|].
  destruct (dtable FMUL) as [[o ov]|] eqn:D; [|discriminate D]. exists o, ov.
  destruct (C78_float64_schedule_free FMUL o ov demo_at 0 8 600000 700000 70000 demo_prod D ltac:(lia) demo_bytes demo_own) as (_ & _ & L).
  destruct (L 3 true []) as (more & m' & M); [change WORK_ITEM_BIG with 65536; lia|lia|]. exists ([] ++ more), m'. split; [reflexivity|]. split; [exact M|].
  pose proof (C82_prod_exact o ov demo_at 0 8 600000 700000 70000 demo_prod demo_factor 1 D ltac:(lia) demo_bytes demo_globals demo_own (proj1 demo_both) _ m' M) as [_ V].
  cbv zeta in V. rewrite V, demo_value. reflexivity.
Qed.
