(** Log_Bounds.v - real polynomials with integer coefficients: values, derivatives, certified bounds on an interval by
    moving the centre; and the polynomial of avx_mathfun.h's log against ln (1 + x). *)
From Coq Require Import Reals Lra.
From Verif Require Import Base Exp_Bounds.

Fixpoint pev (p : list Z) (u : R) : R := match p with [] => 0 | a :: p => IZR a + u * pev p u end%R.
Fixpoint padd (p q : list Z) : list Z := match p, q with [], _ => q | _, [] => p | a :: p, b :: q => (a + b)%Z :: padd p q end.
Lemma padd_ok : forall p q u, (pev (padd p q) u = pev p u + pev q u)%R.
Proof. induction p as [|a p IH]; intros [|b q] u; cbn [padd pev]; try lra. rewrite IH, plus_IZR. lra. Qed.
Definition pscal (c : Z) (p : list Z) : list Z := map (Z.mul c) p.
Lemma pscal_ok c : forall p u, (pev (pscal c p) u = IZR c * pev p u)%R.
Proof. induction p as [|a p IH]; intros u; cbn [pscal map pev]; [lra|]. unfold pscal in IH. rewrite IH, mult_IZR. lra. Qed.
(** p (c + v) as a polynomial in v *)
Fixpoint pshift (c : Z) (p : list Z) : list Z := match p with [] => [] | a :: p => let q := pshift c p in padd [a] (padd (pscal c q) (0%Z :: q)) end.
Lemma pshift_ok c : forall p v, (pev (pshift c p) v = pev p (IZR c + v))%R.
Proof. induction p as [|a p IH]; intros v; [reflexivity|]. cbn [pshift]. rewrite !padd_ok, pscal_ok. cbn [pev]. rewrite IH. lra. Qed.
Fixpoint pbound (h : Z) (p : list Z) : Z := match p with [] => 0 | a :: p => Z.abs a + h * pbound h p end%Z.
Lemma pbound_ok h : (0 <= h)%Z -> forall p v, (Rabs v <= IZR h)%R -> (Rabs (pev p v) <= IZR (pbound h p))%R.
Proof.
  intros Hh p. induction p as [|a p IH]; intros v Hv; cbn [pev pbound]; [rewrite Rabs_R0; lra|]. rewrite plus_IZR, mult_IZR, abs_IZR.
  eapply Rle_trans; [apply Rabs_triang|]. apply Rplus_le_compat_l. rewrite Rabs_mult. apply Rmult_le_compat; auto using Rabs_pos.
Qed.
(** n intervals of half-width h, the first one around c *)
Fixpoint pcheck (p : list Z) (B h c : Z) (n : nat) : bool := match n with O => true | S n => (pbound h (pshift c p) <=? B)%Z && pcheck p B h (c + 2 * h) n end.
Lemma pcheck_ok p B h : (0 < h)%Z -> forall n c, pcheck p B h c n = true -> forall u, (IZR (c - h) <= u <= IZR (c - h + 2 * h * Z.of_nat n))%R -> n <> O -> (Rabs (pev p u) <= IZR B)%R.
Proof.
  intros Hh. induction n as [|n IH]; intros c C u U N; [congruence|]. cbn [pcheck] in C. apply andb_prop in C. destruct C as [C1 C2]. apply Z.leb_le in C1.
  destruct (Rle_lt_dec u (IZR (c + h))) as [L|L].
  - replace u with (IZR c + (u - IZR c))%R by ring. rewrite <- pshift_ok. eapply Rle_trans; [|apply IZR_le, C1]. apply pbound_ok; [lia|].
    rewrite minus_IZR in U. rewrite plus_IZR in L. apply Rabs_le. lra.
  - destruct n as [|n].
    + exfalso. replace (c - h + 2 * h * Z.of_nat 1)%Z with (c + h)%Z in U by lia. lra.
    + apply (IH (c + 2 * h)%Z C2); [|congruence]. replace (c + 2 * h - h)%Z with (c + h)%Z by lia. split; [lra|]. replace (c + h + 2 * h * Z.of_nat (S n))%Z with (c - h + 2 * h * Z.of_nat (S (S n)))%Z by lia. apply U.
Qed.
(** S x as the variable *)
Fixpoint prescale (s : Z) (p : list Z) : list Z := match p with [] => [] | a :: p => (a * s ^ Z.of_nat (length p))%Z :: prescale s p end.
Lemma prescale_ok s : forall p x, (IZR s * pev (prescale s p) (IZR s * x) = IZR (s ^ Z.of_nat (length p)) * pev p x)%R.
Proof.
  induction p as [|a p IH]; intros x; cbn [prescale pev length]; [ring|]. rewrite Nat2Z.inj_succ, Z.pow_succ_r, !mult_IZR by lia.
  transitivity (IZR s * (IZR a * IZR (s ^ Z.of_nat (length p)) + x * (IZR s * pev (prescale s p) (IZR s * x))))%R; [ring|]. rewrite IH. ring.
Qed.
(** derivative *)
Fixpoint pder (p : list Z) : list Z := match p with [] => [] | a :: p => padd p (0%Z :: pder p) end.
Lemma pder_ok : forall p u, derivable_pt_lim (pev p) u (pev (pder p) u).
Proof.
  induction p as [|a p IH]; intros u; cbn [pder].
  - apply (derivable_pt_lim_const 0 u).
  - rewrite padd_ok. cbn [pev].
    replace (pev p u + (0 + u * pev (pder p) u))%R with (0 + (1 * pev p u + u * pev (pder p) u))%R by ring.
    apply (derivable_pt_lim_plus (fct_cte (IZR a)) (fun v => v * pev p v)%R u); [apply derivable_pt_lim_const|].
    apply (derivable_pt_lim_mult (fun v => v) (pev p) u); [apply derivable_pt_lim_id|apply IH].
Qed.

(** ---------- ln (1 + x) ---------- *)
(** 10^12 times the polynomial x - x^2/2 + x^3 (0.33333331174 - ... ), avx_mathfun.h:143-160 *)
Definition ln_poly : list Z := [0; 1000000000000; -500000000000; 333333311740; -249999939930; 200007147650; -166680576650; 142493227870; -124201408460; 116769987400; -115146103100; 70376836292]%Z.
Definition ln_resid : list Z := let d := pder ln_poly in padd (padd d (0%Z :: d)) [(-1000000000000)%Z].
Lemma ln_resid_ok x : (pev ln_resid x = (1 + x) * pev (pder ln_poly) x - 1000000000000)%R.
Proof. unfold ln_resid. cbv zeta. rewrite !padd_ok. cbn [pev]. lra. Qed.
Definition err_ln (x : R) : R := (pev ln_poly x / 1000000000000 - ln (1 + x))%R.
Definition err_ln' (x : R) : R := (pev (pder ln_poly) x / 1000000000000 - / (1 + x))%R.
Lemma err_ln_der x : (-1 < x)%R -> derivable_pt_lim err_ln x (err_ln' x).
Proof.
  intros H. unfold err_ln'. unfold err_ln.
  apply (derivable_pt_lim_minus (fun x => pev ln_poly x / 1000000000000)%R (fun x => ln (1 + x)) x).
  - replace (pev (pder ln_poly) x / 1000000000000)%R with (/ 1000000000000 * pev (pder ln_poly) x)%R by (unfold Rdiv; ring).
    assert (E : derivable_pt_lim (mult_real_fct (/ 1000000000000)%R (pev ln_poly)) x (/ 1000000000000 * pev (pder ln_poly) x)%R) by (apply derivable_pt_lim_scal, pder_ok).
    intros eps He. destruct (E eps He) as [d D]. exists d. intros h Hh Hd. specialize (D h Hh Hd). unfold mult_real_fct in D.
    unfold Rdiv at 2 3. rewrite (Rmult_comm (pev ln_poly (x + h))), (Rmult_comm (pev ln_poly x)). exact D.
  - replace (/ (1 + x))%R with (/ (1 + x) * (0 + 1))%R by ring.
    apply (derivable_pt_lim_comp (fun x => 1 + x)%R ln x); [|apply derivable_pt_lim_ln; lra].
    apply (derivable_pt_lim_plus (fct_cte 1) (fun x => x) x); [apply derivable_pt_lim_const|apply derivable_pt_lim_id].
Qed.
(** the residual times 1000^12 on [-0.294, 0.416] *)
Definition resid_s : list Z := prescale 1000 ln_resid.
Lemma resid_len : length ln_resid = 13%nat. Proof. reflexivity. Qed.
Lemma resid_near : pcheck resid_s (66000 * 1000 ^ 12) 2 (-280) 170 = true.
Proof. vm_compute. reflexivity. Qed.
Lemma resid_low : pcheck resid_s (135000 * 1000 ^ 12) 2 (-292) 3 = true.
Proof. vm_compute. reflexivity. Qed.
Lemma resid_far : pcheck resid_s (531000 * 1000 ^ 12) 2 400 5 = true.
Proof. vm_compute. reflexivity. Qed.
Lemma resid_bound x B : (Rabs (pev resid_s (1000 * x)) <= IZR (B * 1000 ^ 12))%R -> (Rabs (pev ln_resid x) <= IZR B)%R.
Proof.
  intros H. pose proof (prescale_ok 1000 ln_resid x) as E. rewrite resid_len in E. fold resid_s in E.
  assert (P : (pev resid_s (1000 * x) = IZR (1000 ^ 12) * pev ln_resid x)%R).
  { apply Rmult_eq_reg_l with 1000%R; [|lra]. rewrite E. change (Z.of_nat 13) with 13%Z. change (1000 ^ 13)%Z with (1000 * 1000 ^ 12)%Z. rewrite mult_IZR. ring. }
  rewrite P, Rabs_mult, mult_IZR, (Rabs_pos_eq (IZR (1000 ^ 12))) in H by (apply IZR_le; discriminate).
  apply Rmult_le_reg_l with (IZR (1000 ^ 12)); [apply IZR_lt; reflexivity|]. lra.
Qed.
Lemma err_ln'_near x : (-282 / 1000 <= x <= 398 / 1000)%R -> (Rabs (err_ln' x) <= 92 / 1000000000)%R.
Proof.
  intros H. assert (B : (Rabs (pev ln_resid x) <= IZR 66000)%R).
  { apply resid_bound. apply (pcheck_ok _ _ 2 eq_refl _ _ resid_near); [|congruence]. replace (-280 - 2)%Z with (-282)%Z by lia. replace (-282 + 2 * 2 * Z.of_nat 170)%Z with (398)%Z by lia. lra. }
  rewrite ln_resid_ok in B. assert (E : (err_ln' x * (1000000000000 * (1 + x)) = (1 + x) * pev (pder ln_poly) x - 1000000000000)%R) by (unfold err_ln'; field; lra).
  rewrite <- E in B. rewrite Rabs_mult, (Rabs_pos_eq (1000000000000 * (1 + x))) in B by lra. pose proof (Rmult_le_compat_l (Rabs (err_ln' x)) (1000000000000 * (1 + -282 / 1000)) (1000000000000 * (1 + x)) (Rabs_pos _) ltac:(lra)). lra.
Qed.
Lemma err_ln'_low x : (-294 / 1000 <= x <= -282 / 1000)%R -> (Rabs (err_ln' x) <= 192 / 1000000000)%R.
Proof.
  intros H. assert (B : (Rabs (pev ln_resid x) <= IZR 135000)%R).
  { apply resid_bound. apply (pcheck_ok _ _ 2 eq_refl _ _ resid_low); [|congruence]. replace (-292 - 2)%Z with (-294)%Z by lia. replace (-294 + 2 * 2 * Z.of_nat 3)%Z with (-282)%Z by lia. lra. }
  rewrite ln_resid_ok in B. assert (E : (err_ln' x * (1000000000000 * (1 + x)) = (1 + x) * pev (pder ln_poly) x - 1000000000000)%R) by (unfold err_ln'; field; lra).
  rewrite <- E in B. rewrite Rabs_mult, (Rabs_pos_eq (1000000000000 * (1 + x))) in B by lra. pose proof (Rmult_le_compat_l (Rabs (err_ln' x)) (1000000000000 * (1 + -294 / 1000)) (1000000000000 * (1 + x)) (Rabs_pos _) ltac:(lra)). lra.
Qed.
Lemma err_ln'_far x : (398 / 1000 <= x <= 418 / 1000)%R -> (Rabs (err_ln' x) <= 381 / 1000000000)%R.
Proof.
  intros H. assert (B : (Rabs (pev ln_resid x) <= IZR 531000)%R).
  { apply resid_bound. apply (pcheck_ok _ _ 2 eq_refl _ _ resid_far); [|congruence]. replace (400 - 2)%Z with (398)%Z by lia. replace (398 + 2 * 2 * Z.of_nat 5)%Z with (418)%Z by lia. lra. }
  rewrite ln_resid_ok in B. assert (E : (err_ln' x * (1000000000000 * (1 + x)) = (1 + x) * pev (pder ln_poly) x - 1000000000000)%R) by (unfold err_ln'; field; lra).
  rewrite <- E in B. rewrite Rabs_mult, (Rabs_pos_eq (1000000000000 * (1 + x))) in B by lra. pose proof (Rmult_le_compat_l (Rabs (err_ln' x)) (1000000000000 * (1 + 398 / 1000)) (1000000000000 * (1 + x)) (Rabs_pos _) ltac:(lra)). lra.
Qed.
Lemma err_ln_0 : err_ln 0 = 0%R.
Proof. unfold err_ln. replace (1 + 0)%R with 1%R by ring. rewrite ln_1. cbn [ln_poly pev]. lra. Qed.
Lemma err_ln_step a b e : (-1 < a <= b)%R -> (forall c, (a <= c <= b)%R -> (Rabs (err_ln' c) <= e)%R) -> (Rabs (err_ln b - err_ln a) <= e * (b - a))%R.
Proof.
  intros H B. destruct (Rle_lt_or_eq_dec a b ltac:(lra)) as [L| ->]; [|rewrite !Rminus_diag_eq, Rmult_0_r, Rabs_R0 by reflexivity; lra].
  destruct (MVT_cor2 err_ln err_ln' a b L) as (c & E & C); [intros c C; apply err_ln_der; lra|]. rewrite E, Rabs_mult, (Rabs_pos_eq (b - a)) by lra. apply Rmult_le_compat_r; [lra|]. apply B. lra.
Qed.
(** relative to x *)
Lemma ln_close x : (-294 / 1000 <= x <= 4145 / 10000)%R -> (Rabs (pev ln_poly x / 1000000000000 - ln (1 + x)) <= 11 / 100000000 * Rabs x)%R.
Proof.
  intros H. change (Rabs (err_ln x) <= 11 / 100000000 * Rabs x)%R. destruct (Rle_lt_dec x 0) as [N|P].
  - rewrite (Rabs_left1 x) by lra. destruct (Rle_lt_dec (-282 / 1000) x) as [L|L].
    + pose proof (err_ln_step x 0 (92 / 1000000000) ltac:(lra) ltac:(intros c C; apply err_ln'_near; lra)) as E. rewrite err_ln_0 in E. replace (0 - err_ln x)%R with (- err_ln x)%R in E by ring. rewrite Rabs_Ropp in E. lra.
    + pose proof (err_ln_step (-282 / 1000) 0 (92 / 1000000000) ltac:(lra) ltac:(intros c C; apply err_ln'_near; lra)) as E. rewrite err_ln_0 in E. replace (0 - err_ln (-282 / 1000))%R with (- err_ln (-282 / 1000))%R in E by ring. rewrite Rabs_Ropp in E.
      pose proof (err_ln_step x (-282 / 1000) (192 / 1000000000) ltac:(lra) ltac:(intros c C; apply err_ln'_low; lra)) as E2. rewrite Rabs_minus_sym in E2.
      pose proof (Rabs_triang (err_ln x - err_ln (-282 / 1000)) (err_ln (-282 / 1000))) as T. replace (err_ln x - err_ln (-282 / 1000) + err_ln (-282 / 1000))%R with (err_ln x) in T by ring. lra.
  - rewrite (Rabs_pos_eq x) by lra. destruct (Rle_lt_dec x (398 / 1000)) as [L|L].
    + pose proof (err_ln_step 0 x (92 / 1000000000) ltac:(lra) ltac:(intros c C; apply err_ln'_near; lra)) as E. rewrite err_ln_0, Rminus_0_r in E. lra.
    + pose proof (err_ln_step 0 (398 / 1000) (92 / 1000000000) ltac:(lra) ltac:(intros c C; apply err_ln'_near; lra)) as E. rewrite err_ln_0, Rminus_0_r in E.
      pose proof (err_ln_step (398 / 1000) x (381 / 1000000000) ltac:(lra) ltac:(intros c C; apply err_ln'_far; lra)) as E2.
      pose proof (Rabs_triang (err_ln x - err_ln (398 / 1000)) (err_ln (398 / 1000))) as T. replace (err_ln x - err_ln (398 / 1000) + err_ln (398 / 1000))%R with (err_ln x) in T by ring. lra.
Qed.
