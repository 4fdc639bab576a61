(** Exp_Bounds.v - bounds of the real functions exp and ln from their series; Coq's Reals only. *)
From Coq Require Import ZArith Reals Lra Lia.
Local Open Scope R_scope.

Definition term (x : R) (j : nat) : R := Rabs x ^ j / INR (fact j).
Lemma fact_pos j : 0 < INR (fact j). Proof. apply lt_0_INR, lt_O_fact. Qed.
Lemma term_pos x j : 0 <= term x j.
Proof. unfold term. apply Rmult_le_pos; [apply pow_le, Rabs_pos|left; apply Rinv_0_lt_compat, fact_pos]. Qed.
Lemma term_half x j : Rabs x <= 1 -> (1 <= j)%nat -> 2 * term x (S j) <= term x j.
Proof.
  intros Hx Hj. unfold term. rewrite fact_simpl, mult_INR. pose proof (fact_pos j) as F. pose proof (pow_le (Rabs x) j (Rabs_pos x)) as P. cbn [pow].
  assert (J : 2 <= INR (S j)) by (replace 2 with (INR 2) by (cbn; ring); apply le_INR; lia).
  apply Rmult_le_reg_r with (INR (S j) * INR (fact j)); [nra|].
  replace (2 * (Rabs x * Rabs x ^ j / (INR (S j) * INR (fact j))) * (INR (S j) * INR (fact j))) with (2 * Rabs x * Rabs x ^ j) by (field; lra).
  replace (Rabs x ^ j / INR (fact j) * (INR (S j) * INR (fact j))) with (INR (S j) * Rabs x ^ j) by (field; lra).
  pose proof (Rabs_pos x). nra.
Qed.
Lemma E1_tail x N : Rabs x <= 1 -> forall k, Rabs (E1 x (N + k) - E1 x N) + 2 * term x (S (N + k)) <= 2 * term x (S N).
Proof.
  intros Hx. induction k as [|k IH].
  - rewrite Nat.add_0_r, Rminus_diag_eq, Rabs_R0 by reflexivity. lra.
  - rewrite Nat.add_succ_r. change (E1 x (S (N + k))) with (E1 x (N + k) + / INR (fact (S (N + k))) * x ^ S (N + k)).
    set (t := / INR (fact (S (N + k))) * x ^ S (N + k)).
    assert (T : Rabs t = term x (S (N + k))).
    { unfold t, term, Rdiv. rewrite Rabs_mult, <- RPow_abs, (Rabs_pos_eq (/ _)) by (left; apply Rinv_0_lt_compat, fact_pos). ring. }
    pose proof (term_half x (S (N + k)) Hx ltac:(lia)). pose proof (Rabs_triang (E1 x (N + k) - E1 x N) t).
    replace (E1 x (N + k) + t - E1 x N) with (E1 x (N + k) - E1 x N + t) by ring. lra.
Qed.
Lemma limit_le (u : nat -> R) l a c : Un_cv u l -> (exists n0, forall n, (n >= n0)%nat -> Rabs (u n - a) <= c) -> Rabs (l - a) <= c.
Proof.
  intros H [n0 B]. destruct (Rle_dec (Rabs (l - a)) c) as [|G]; [assumption|exfalso]. apply Rnot_le_lt in G.
  destruct (H (Rabs (l - a) - c) ltac:(lra)) as [n1 Hn]. specialize (Hn (max n0 n1) ltac:(lia)). specialize (B (max n0 n1) ltac:(lia)). unfold R_dist in Hn.
  pose proof (Rabs_triang (l - u (max n0 n1)) (u (max n0 n1) - a)) as T. replace (l - u (max n0 n1) + (u (max n0 n1) - a)) with (l - a) in T by ring.
  rewrite (Rabs_minus_sym l (u _)) in T. lra.
Qed.
(** the N-th Taylor polynomial of exp on [-1, 1] *)
Lemma exp_taylor x N : Rabs x <= 1 -> Rabs (exp x - E1 x N) <= 2 * term x (S N).
Proof.
  intros Hx. apply (limit_le (E1 x)); [apply E1_cvg|]. exists N. intros n Hn. replace n with (N + (n - N))%nat by lia.
  pose proof (E1_tail x N Hx (n - N)). pose proof (term_pos x (S (N + (n - N)))). lra.
Qed.
Lemma Rabs_pow_le x b j : Rabs x <= b -> Rabs x ^ j <= b ^ j.
Proof. intros H. apply pow_incr. split; [apply Rabs_pos|exact H]. Qed.

Lemma E1_ext x : E1 x 7 = 1 + x + x * x * (1 / 2 + x * (1 / 6 + x * (1 / 24 + x * (1 / 120 + x * (1 / 720 + x * (1 / 5040)))))).
Proof. unfold E1, sum_f_R0. rewrite !fact_simpl, !mult_INR. change (fact 0) with 1%nat. rewrite !INR_IZR_INZ. cbn [Z.of_nat Pos.of_succ_nat Pos.succ pow]. field. Qed.

(** ln 2 *)
Lemma E1_9 x : E1 x 9 = 1 + x * (1 + x * (1 / 2 + x * (1 / 6 + x * (1 / 24 + x * (1 / 120 + x * (1 / 720 + x * (1 / 5040 + x * (1 / 40320 + x * (1 / 362880))))))))).
Proof. unfold E1, sum_f_R0. rewrite !fact_simpl, !mult_INR. change (fact 0) with 1%nat. rewrite !INR_IZR_INZ. cbn [Z.of_nat Pos.of_succ_nat Pos.succ pow]. field. Qed.
Lemma term_10 x : 0 <= x -> term x 10 = x * x * x * x * x * x * x * x * x * x * (1 / 3628800).
Proof.
  intros H. unfold term. rewrite (Rabs_pos_eq x H). rewrite !fact_simpl, !mult_INR. change (fact 0) with 1%nat. rewrite !INR_IZR_INZ. cbn [Z.of_nat Pos.of_succ_nat Pos.succ pow]. field.
Qed.
Lemma exp_9 q lo hi : 0 <= q <= 1 -> let p := 1 + q * (1 + q * (1 / 2 + q * (1 / 6 + q * (1 / 24 + q * (1 / 120 + q * (1 / 720 + q * (1 / 5040 + q * (1 / 40320 + q * (1 / 362880))))))))) in
  let t := 2 * (q * q * q * q * q * q * q * q * q * q * (1 / 3628800)) in lo <= p - t -> p + t <= hi -> lo <= exp q <= hi.
Proof.
  intros Hq p t H1 H2. assert (A : Rabs q <= 1) by (rewrite Rabs_pos_eq; lra). pose proof (exp_taylor q 9 A) as T. rewrite E1_9, term_10 in T by lra. fold p in T.
  fold t in T. revert T. unfold Rabs. destruct (Rcase_abs _); lra.
Qed.
Definition ln2_lo : R := 69314718055994 / 100000000000000.
Definition ln2_hi : R := 69314718055995 / 100000000000000.
Lemma exp_8 q : exp (8 * q) = exp q * exp q * (exp q * exp q) * (exp q * exp q * (exp q * exp q)).
Proof. replace (8 * q) with (q + q + (q + q) + (q + q + (q + q))) by ring. now rewrite !exp_plus. Qed.
Lemma pow8_le x y : 0 <= x <= y -> x * x * (x * x) * (x * x * (x * x)) <= y * y * (y * y) * (y * y * (y * y)).
Proof. intros H. assert (0 <= x * x <= y * y) by nra. assert (0 <= x * x * (x * x) <= y * y * (y * y)) by nra. nra. Qed.
Lemma ln2_bounds : ln2_lo <= ln 2 <= ln2_hi.
Proof.
  split.
  - rewrite <- (ln_exp ln2_lo). destruct (Rle_lt_or_eq_dec (exp ln2_lo) 2) as [L| ->]; [|left; now apply ln_increasing; [apply exp_pos|]|right; reflexivity].
    replace ln2_lo with (8 * (ln2_lo / 8)) by field. rewrite exp_8.
    destruct (exp_9 (ln2_lo / 8) 0 (1090507732665256942 / 1000000000000000000)) as [_ U]; [unfold ln2_lo; lra|cbv zeta; unfold ln2_lo; lra|cbv zeta; unfold ln2_lo; lra|].
    eapply Rle_trans; [apply (pow8_le _ _ (conj (Rlt_le _ _ (exp_pos _)) U))|lra].
  - rewrite <- (ln_exp ln2_hi). destruct (Rle_lt_or_eq_dec 2 (exp ln2_hi)) as [L|E]; [|left; apply ln_increasing; [lra|exact L]|right; now rewrite <- E].
    replace ln2_hi with (8 * (ln2_hi / 8)) by field. rewrite exp_8.
    destruct (exp_9 (ln2_hi / 8) (1090507732665258278 / 1000000000000000000) 2) as [L _]; [unfold ln2_hi; lra|cbv zeta; unfold ln2_hi; lra|cbv zeta; unfold ln2_hi; lra|].
    eapply Rle_trans; [|apply pow8_le; split; [|exact L]; lra]. lra.
Qed.
