(** Sin_Bounds.v - pi, and the polynomials of avx_mathfun.h's sin and cos against sin and cos. *)
From Coq Require Import Reals Lra Machin Ratan.
From Verif Require Import Base Exp_Bounds Log_Bounds.

(** ---------- pi ---------- *)
Lemma pi_bounds : (785398163397448 / 1000000000000000 <= PI / 4 <= 785398163397449 / 1000000000000000)%R.
Proof.
  pose proof (PI_2_3_7_ineq 7) as [L U]. cbn [sum_f_R0 Nat.mul Nat.add] in L, U. unfold tg_alt, PI_2_3_7_tg, Ratan_seq in L, U. cbn [Nat.mul Nat.add pow] in L, U. repeat rewrite INR_IZR_INZ in L. repeat rewrite INR_IZR_INZ in U.
  repeat match type of L with context [IZR (Z.of_nat ?n)] => let z := eval vm_compute in (Z.of_nat n) in change (Z.of_nat n) with z in L end.
  repeat match type of U with context [IZR (Z.of_nat ?n)] => let z := eval vm_compute in (Z.of_nat n) in change (Z.of_nat n) with z in U end.
  split; lra.
Qed.

(** ---------- polynomials ---------- *)
Definition cos_p (z : R) : R := (((2443315711809948 / 100000000000000000000 * z + -1388731625493765 / 1000000000000000000) * z + 4166664568298827 / 100000000000000000) * z * z - z * (1 / 2) + 1)%R.
Definition sin_p (z : R) : R := (((-19515295891 / 100000000000000 * z + 83321608736 / 10000000000000) * z + -16666654611 / 100000000000) * z)%R.
(** 10^20 10! times the difference of cos_p and the Taylor polynomial up to z^5; 10^14 11! times that of 1 + sin_p *)
Definition cos_d : list Z := [0; 0; -7614557216582400000; 57067740822556800000; -133695944984060697600; 100000000000000000000]%Z.
Definition sin_d : list Z := [0; 481223635200000; -4680084068352000; 13011836978131200; -11000000000000000; 100000000000000]%Z.
Lemma cos_d_ok z : (pev cos_d z / 362880000000000000000000000 = cos_p z - (1 - z * / 2 + z ^ 2 * / 24 - z ^ 3 * / 720 + z ^ 4 * / 40320 - z ^ 5 * / 3628800))%R.
Proof. unfold cos_d, cos_p. cbn [pev pow]. field. Qed.
Lemma sin_d_ok z : (pev sin_d z / 3991680000000000000000 = 1 + sin_p z - (1 - z * / 6 + z ^ 2 * / 120 - z ^ 3 * / 5040 + z ^ 4 * / 362880 - z ^ 5 * / 39916800))%R.
Proof. unfold sin_d, sin_p. cbn [pev pow]. field. Qed.
Lemma cos_near : pcheck (prescale 1000 cos_d) (145152000000000000 * 1000 ^ 5) 5 5 63 = true. Proof. vm_compute. reflexivity. Qed.
Lemma cos_far : pcheck (prescale 1000 cos_d) (166924800000000000000 * 1000 ^ 5) 5 5 140 = true. Proof. vm_compute. reflexivity. Qed.
Lemma sin_near : pcheck (prescale 1000 sin_d) (23950080000000 * 1000 ^ 5) 5 5 63 = true. Proof. vm_compute. reflexivity. Qed.
Lemma sin_far : pcheck (prescale 1000 sin_d) (14769216000000000 * 1000 ^ 5) 5 5 140 = true. Proof. vm_compute. reflexivity. Qed.
Lemma poly_bound p B n z : length p = 6%nat -> pcheck (prescale 1000 p) (B * 1000 ^ 5) 5 5 n = true -> n <> O -> (0 <= z <= IZR (Z.of_nat n) / 100)%R -> (Rabs (pev p z) <= IZR B)%R.
Proof.
  intros Lp C Nn Hz. pose proof (pcheck_ok _ _ 5 eq_refl _ _ C (1000 * z)) as P. pose proof (prescale_ok 1000 p z) as E. rewrite Lp in E. change (Z.of_nat 6) with 6%Z in E.
  assert (Q : (pev (prescale 1000 p) (1000 * z) = IZR (1000 ^ 5) * pev p z)%R).
  { apply Rmult_eq_reg_l with 1000%R; [|lra]. rewrite E. change (1000 ^ 6)%Z with (1000 * 1000 ^ 5)%Z. rewrite mult_IZR. ring. }
  rewrite Q, Rabs_mult, mult_IZR, (Rabs_pos_eq (IZR (1000 ^ 5))) in P by (apply IZR_le; discriminate).
  apply Rmult_le_reg_l with (IZR (1000 ^ 5)); [apply IZR_lt; reflexivity|]. rewrite (Rmult_comm _ (IZR B)). apply P; [|exact Nn].
  replace (5 - 5)%Z with 0%Z by lia. replace (0 + 2 * 5 * Z.of_nat n)%Z with (10 * Z.of_nat n)%Z by lia. rewrite mult_IZR. lra.
Qed.
Fixpoint zfact (n : nat) : Z := match n with O => 1 | S k => Z.of_nat (S k) * zfact k end%Z.
Lemma zfact_ok n : INR (fact n) = IZR (zfact n).
Proof. induction n as [|n IH]; [reflexivity|]. rewrite fact_simpl, mult_INR, IH. cbn [zfact]. rewrite mult_IZR, INR_IZR_INZ. reflexivity. Qed.
Lemma cos_taylor r : (Rabs r <= 2)%R -> let z := (r * r)%R in
  (0 <= cos r - (1 - z * / 2 + z ^ 2 * / 24 - z ^ 3 * / 720 + z ^ 4 * / 40320 - z ^ 5 * / 3628800) <= z ^ 6 * / 479001600)%R.
Proof.
  intros H z. assert (H2 : (-2 <= r <= 2)%R) by (unfold Rabs in H; destruct (Rcase_abs r); lra).
  destruct (pre_cos_bound r 2) as [L U]; [lra|lra|]. unfold cos_approx, cos_term in L, U. cbn [sum_f_R0 Nat.mul Nat.add] in L, U. repeat rewrite zfact_ok in L. repeat rewrite zfact_ok in U.
  repeat match type of L with context [IZR (zfact ?n)] => let z := eval vm_compute in (zfact n) in change (zfact n) with z in L end.
  repeat match type of U with context [IZR (zfact ?n)] => let z := eval vm_compute in (zfact n) in change (zfact n) with z in U end.
  cbn [pow] in *. unfold z. split; lra.
Qed.
Lemma sin_taylor : forall r, (Rabs r <= 4)%R -> let z := (r * r)%R in
  exists d, (sin r = r * ((1 - z * / 6 + z ^ 2 * / 120 - z ^ 3 * / 5040 + z ^ 4 * / 362880 - z ^ 5 * / 39916800) + d) /\ 0 <= d <= z ^ 6 * / 6227020800)%R.
Proof.
  assert (P : forall r, (0 < r <= 4)%R -> let z := (r * r)%R in exists d, (sin r = r * ((1 - z * / 6 + z ^ 2 * / 120 - z ^ 3 * / 5040 + z ^ 4 * / 362880 - z ^ 5 * / 39916800) + d) /\ 0 <= d <= z ^ 6 * / 6227020800)%R).
  { intros r H z. destruct (pre_sin_bound r 2) as [L U]; [lra|lra|]. unfold sin_approx, sin_term in L, U. cbn [sum_f_R0 Nat.mul Nat.add] in L, U. repeat rewrite zfact_ok in L. repeat rewrite zfact_ok in U.
    repeat match type of L with context [IZR (zfact ?n)] => let z := eval vm_compute in (zfact n) in change (zfact n) with z in L end.
    repeat match type of U with context [IZR (zfact ?n)] => let z := eval vm_compute in (zfact n) in change (zfact n) with z in U end.
    set (t := (1 - z * / 6 + z ^ 2 * / 120 - z ^ 3 * / 5040 + z ^ 4 * / 362880 - z ^ 5 * / 39916800)%R).
    exists (sin r / r - t)%R. split; [field; lra|]. split.
    - apply Rmult_le_reg_l with r; [lra|]. replace (r * (sin r / r - t))%R with (sin r - r * t)%R by (field; lra). unfold t, z. cbn [pow] in *. lra.
    - apply Rmult_le_reg_l with r; [lra|]. replace (r * (sin r / r - t))%R with (sin r - r * t)%R by (field; lra). unfold t, z. cbn [pow] in *. lra. }
  intros r H z. unfold Rabs in H. destruct (Rcase_abs r) as [N|N].
  - destruct (P (- r)%R ltac:(lra)) as (d & E & B). rewrite sin_neg in E. replace (- r * - r)%R with z in E, B by (unfold z; ring). exists d. split; [|exact B]. lra.
  - destruct (Req_dec r 0) as [-> |Ne]; [|apply P; lra]. exists 0%R. rewrite sin_0. split; [ring|]. split; [lra|]. unfold z. cbn [pow]. lra.
Qed.
Lemma sq_range r b : (Rabs r <= b)%R -> (0 <= r * r <= b * b)%R.
Proof. intros H. pose proof (Rabs_pos r). split; [nra|]. rewrite <- (Rabs_pos_eq (r * r)) by nra. rewrite Rabs_mult. apply Rmult_le_compat; lra. Qed.
Lemma pow_range z b n : (0 <= z <= b)%R -> (0 <= z ^ n <= b ^ n)%R.
Proof. intros H. split; [apply pow_le; lra|apply pow_incr; lra]. Qed.
Lemma cos_close_near r : (Rabs r <= 79 / 100 -> Rabs (cos_p (r * r) - cos r) <= 6 / 10000000000)%R.
Proof.
  intros H. destruct (cos_taylor r ltac:(lra)) as [T1 T2]. pose proof (sq_range r _ H) as Z. set (z := (r * r)%R) in *.
  pose proof (poly_bound cos_d _ 63 z eq_refl cos_near ltac:(congruence)) as B. change (IZR (Z.of_nat 63)) with 63%R in B. specialize (B ltac:(lra)).
  pose proof (cos_d_ok z) as E. pose proof (pow_range z _ 6 Z) as [_ P]. set (t := (1 - _ + _ - _ + _ - _)%R) in *. set (z6 := (z ^ 6)%R) in *. clearbody z6 t. cbn [pow] in P.
  apply Rabs_le. unfold Rabs in B. destruct (Rcase_abs _); lra.
Qed.
Lemma cos_close_far r : (Rabs r <= 1183 / 1000 -> Rabs (cos_p (r * r) - cos r) <= 5 / 10000000)%R.
Proof.
  intros H. destruct (cos_taylor r ltac:(lra)) as [T1 T2]. pose proof (sq_range r _ H) as Z. set (z := (r * r)%R) in *.
  pose proof (poly_bound cos_d _ 140 z eq_refl cos_far ltac:(congruence)) as B. change (IZR (Z.of_nat 140)) with 140%R in B. specialize (B ltac:(lra)).
  pose proof (cos_d_ok z) as E. pose proof (pow_range z _ 6 Z) as [_ P]. set (t := (1 - _ + _ - _ + _ - _)%R) in *. set (z6 := (z ^ 6)%R) in *. clearbody z6 t. cbn [pow] in P.
  apply Rabs_le. unfold Rabs in B. destruct (Rcase_abs _); lra.
Qed.
(** relative to r *)
Lemma sin_close_near r : (Rabs r <= 79 / 100 -> Rabs (sin_p (r * r) * r + r - sin r) <= 61 / 10000000000 * Rabs r)%R.
Proof.
  intros H. destruct (sin_taylor r ltac:(lra)) as (d & S & D1 & D2). pose proof (sq_range r _ H) as Z. set (z := (r * r)%R) in *.
  pose proof (poly_bound sin_d _ 63 z eq_refl sin_near ltac:(congruence)) as B. change (IZR (Z.of_nat 63)) with 63%R in B. specialize (B ltac:(lra)).
  pose proof (sin_d_ok z) as E. pose proof (pow_range z _ 6 Z) as [_ P]. set (t := (1 - _ + _ - _ + _ - _)%R) in *.
  replace (sin_p z * r + r - sin r)%R with ((pev sin_d z / 3991680000000000000000 - d) * r)%R by (rewrite S, E; ring). rewrite Rabs_mult. apply Rmult_le_compat_r; [apply Rabs_pos|].
  set (z6 := (z ^ 6)%R) in *. clearbody z6 t. cbn [pow] in P. apply Rabs_le. unfold Rabs in B. destruct (Rcase_abs _); lra.
Qed.
Lemma sin_close_far r : (Rabs r <= 1183 / 1000 -> Rabs (sin_p (r * r) * r + r - sin r) <= 371 / 100000000 * Rabs r)%R.
Proof.
  intros H. destruct (sin_taylor r ltac:(lra)) as (d & S & D1 & D2). pose proof (sq_range r _ H) as Z. set (z := (r * r)%R) in *.
  pose proof (poly_bound sin_d _ 140 z eq_refl sin_far ltac:(congruence)) as B. change (IZR (Z.of_nat 140)) with 140%R in B. specialize (B ltac:(lra)).
  pose proof (sin_d_ok z) as E. pose proof (pow_range z _ 6 Z) as [_ P]. set (t := (1 - _ + _ - _ + _ - _)%R) in *.
  replace (sin_p z * r + r - sin r)%R with ((pev sin_d z / 3991680000000000000000 - d) * r)%R by (rewrite S, E; ring). rewrite Rabs_mult. apply Rmult_le_compat_r; [apply Rabs_pos|].
  set (z6 := (z ^ 6)%R) in *. clearbody z6 t. cbn [pow] in P. apply Rabs_le. unfold Rabs in B. destruct (Rcase_abs _); lra.
Qed.
