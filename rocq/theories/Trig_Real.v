(** Trig_Real.v - the rounding error of the float operations of Arith_Model.v, over the reals. *)
From Coq Require Import Reals Lra.
From Verif Require Import Base Kernel_Model Kernel_Proofs Kernel_Props Float_Model Compare_Model Compare_Proofs Compare_Props Unary_Model Unary_Proofs Unary_Props UnaryVal_Props Round_Model Round_Props Arith_Model Arith_Props Trig_Model Trig_Props.

(** the real number a finite pattern stands for *)
Definition real (f : fmt) (x : Z) : R := (IZR (fval f x) / IZR (one_val f))%R.
Definition fin (f : fmt) (x : Z) : Prop := 0 <= x < 2 ^ fwidth f /\ finite_p f x.
(** the largest finite number *)
Definition max_fin (f : fmt) : Z := mag_value f (finf f - 1).
Definition Rmax_fin (f : fmt) : R := (IZR (max_fin f) / IZR (one_val f))%R.
(** half a unit in the last place, relative; half of the smallest subnormal *)
Definition u_ (f : fmt) : R := (/ IZR (2 ^ (fbits f + 1)))%R.
Definition eta (f : fmt) : R := (/ IZR (2 * one_val f))%R.

(** ---------- integers ---------- *)
Section Z_errors.
  Variable f : fmt.
  Hypothesis K : known f.
  Let P := 2 ^ fbits f.
  Lemma P_pos : 1 < P. Proof. unfold P. destruct K as [-> | ->]; reflexivity. Qed.
  (* the gap above a magnitude *)
  Lemma gap g : 0 <= g -> (mag_value f (g + 1) - mag_value f g) * P <= Z.max P (mag_value f g).
  Proof.
    intros Hg. pose proof P_pos. unfold mag_value. fold P.
    pose proof (Z.div_mod g P ltac:(lia)) as D. pose proof (Z.mod_pos_bound g P ltac:(lia)) as M. pose proof (Z.div_pos g P Hg ltac:(lia)) as Q.
    set (e := g / P) in *. set (r := g mod P) in *.
    assert (C : (g + 1) / P = e /\ (g + 1) mod P = r + 1 /\ r + 1 < P \/ (g + 1) / P = e + 1 /\ (g + 1) mod P = 0 /\ r + 1 = P).
    { destruct (Z.eq_dec (r + 1) P) as [E|E]; [right|left].
      - split; [symmetry; apply (Z.div_unique _ _ _ 0); lia|]. split; [symmetry; apply (Z.mod_unique _ _ (e + 1)); lia|lia].
      - split; [symmetry; apply (Z.div_unique _ _ _ (r + 1)); lia|]. split; [symmetry; apply (Z.mod_unique _ _ e); lia|lia]. }
    destruct C as [(-> & -> & L)|(-> & -> & L)]; destruct (Z.eqb_spec e 0) as [E|E].
    - lia.
    - assert (0 < 2 ^ (e - 1)) by (apply Z.pow_pos_nonneg; lia). nia.
    - rewrite E. change (0 + 1 =? 0) with false. cbv iota. change (2 ^ (0 + 1 - 1)) with 1. replace r with (P - 1) by lia. replace (((P + 0) * 1 - (P - 1)) * P) with P by ring. lia.
    - destruct (Z.eqb_spec (e + 1) 0); [lia|]. replace (e + 1 - 1) with (Z.succ (e - 1)) by lia. rewrite Z.pow_succ_r by lia.
      assert (0 < 2 ^ (e - 1)) by (apply Z.pow_pos_nonneg; lia). nia.
  Qed.
  Lemma bracket N D : 0 <= N -> 0 < D -> N <= max_fin f * D -> exists g, 0 <= g < finf f /\ mag_value f g * D <= N < mag_value f (g + 1) * D.
  Proof.
    intros HN HD HM. destruct (inf_bound f K) as [[I1 I2] _]. set (k := Z.to_nat (fwidth f - 1)).
    assert (Hk : Z.of_nat k = fwidth f - 1) by (unfold k; destruct K as [-> | ->]; reflexivity).
    pose proof (search_ok f N D k HN 0 ltac:(lia)) as S. cbv zeta in S. destruct S as (S1 & [S2 S3] & S4).
    { split; [lia|]. rewrite (mv_0 f K). lia. }
    { intros [C _]. rewrite Hk in C. lia. }
    set (g := search f N D k 0) in *. clearbody g. unfold fits in *.
    assert (g < finf f).
    { destruct (Z.eq_dec g (finf f)) as [->|]; [exfalso|lia]. pose proof (mv_mono f K (finf f - 1) (finf f) ltac:(lia)). unfold max_fin in HM. nia. }
    exists g. split; [lia|]. split; [lia|]. destruct (Z.lt_ge_cases N (mag_value f (g + 1) * D)); [assumption|]. destruct S4. split; lia.
  Qed.
  (** rounding a quotient no larger than the largest finite number *)
  Lemma rnd_err N D : 0 <= N -> 0 < D -> N <= max_fin f * D -> let g := rnd_mag f N D in
    0 <= g < finf f /\ 2 * P * Z.abs (mag_value f g * D - N) <= Z.max (P * D) N.
  Proof.
    intros HN HD HM g. destruct (bracket N D HN HD HM) as (h & Hh & L & U). destruct (inf_bound f K) as [[I1 I2] _].
    destruct (rnd_ok f K N D HN HD) as [R NE]. fold g in R, NE.
    assert (NE' : forall z, 0 <= z <= finf f -> Z.abs (mag_value f g * D - N) <= Z.abs (mag_value f z * D - N)).
    { intros z Hz. destruct (Z.eq_dec z g) as [->|Ne]; [lia|]. rewrite !(mv_small f) by lia. destruct (NE z Hz Ne); lia. }
    assert (B : 2 * Z.abs (mag_value f g * D - N) <= mag_value f (h + 1) * D - mag_value f h * D).
    { pose proof (NE' h ltac:(lia)). pose proof (NE' (h + 1) ltac:(lia)). lia. }
    split.
    - split; [lia|]. destruct (Z.eq_dec g (finf f)) as [E|]; [exfalso|lia]. pose proof (NE' (finf f - 1) ltac:(lia)) as Q.
      rewrite E in Q. pose proof (mv_mono f K (finf f - 1) (finf f) ltac:(lia)). fold (max_fin f) in Q, H. nia.
    - pose proof (gap h ltac:(lia)) as G. pose proof P_pos.
      assert (2 * P * Z.abs (mag_value f g * D - N) <= (mag_value f (h + 1) - mag_value f h) * P * D) by nia.
      pose proof (mv_nonneg f K h ltac:(lia)). nia.
  Qed.
  (** a magnitude of the form k * 2^j is a pattern; a quotient equal to a pattern's value rounds to it *)
  Lemma repr j : 0 <= j -> forall k, 0 <= k < 2 * P -> k * 2 ^ j <= max_fin f -> exists g, 0 <= g < finf f /\ mag_value f g = k * 2 ^ j.
  Proof.
    intros Hj. pose proof P_pos as PP. destruct (inf_bound f K) as [[I1 I2] _].
    assert (BASE : forall j k, 0 <= j -> P <= k < 2 * P -> mag_value f (j * P + k) = k * 2 ^ j).
    { intros i k Hi Hk. unfold mag_value. fold P. replace ((i * P + k) / P) with (i + 1) by (apply (Z.div_unique _ _ _ (k - P)); lia).
      replace ((i * P + k) mod P) with (k - P) by (apply (Z.mod_unique _ _ (i + 1)); lia). destruct (Z.eqb_spec (i + 1) 0); [lia|].
      replace (i + 1 - 1) with i by lia. f_equal. lia. }
    assert (LE : forall g, 0 <= g -> mag_value f g <= max_fin f -> g < finf f).
    { intros g Hg L. destruct (Z.lt_ge_cases g (finf f)) as [|G]; [assumption|exfalso]. pose proof (mv_mono f K (finf f - 1) g ltac:(lia)). unfold max_fin in L. lia. }
    revert j Hj. apply (natlike_ind (fun j => forall k, 0 <= k < 2 * P -> k * 2 ^ j <= max_fin f -> exists g, 0 <= g < finf f /\ mag_value f g = k * 2 ^ j)).
    - intros k Hk L. exists k. assert (E : mag_value f k = k * 2 ^ 0).
      { destruct (Z.lt_ge_cases k P); [unfold mag_value; fold P; rewrite (Z.div_small k P), (Z.mod_small k P) by lia; rewrite Z.eqb_refl; symmetry; apply Z.mul_1_r|]. pose proof (BASE 0 k ltac:(lia) ltac:(lia)) as B0. exact B0. }
      split; [split; [lia|apply LE; [lia|rewrite E; exact L]]|exact E].
    - intros i Hi IH k Hk L. destruct (Z.lt_ge_cases k P) as [S|S].
      + destruct (IH (2 * k) ltac:(lia)) as (g & G1 & G2); [rewrite Z.pow_succ_r in L by lia; lia|]. exists g. split; [exact G1|]. rewrite Z.pow_succ_r by lia. lia.
      + pose proof (BASE (Z.succ i) k ltac:(lia) ltac:(lia)) as B. exists (Z.succ i * P + k). split; [split; [nia|apply LE; [nia|lia]]|exact B].
  Qed.
  Lemma rnd_exact N D g : 0 <= N -> 0 < D -> 0 <= g < finf f -> mag_value f g * D = N -> rnd_mag f N D = g.
  Proof.
    intros HN HD Hg E. destruct (rnd_ok f K N D HN HD) as [R NE]. set (h := rnd_mag f N D) in *. destruct (inf_bound f K) as [[I1 I2] _].
    destruct (Z.eq_dec g h) as [|Ne]; [congruence|exfalso]. specialize (NE g ltac:(lia) Ne). rewrite <- !(mv_small f) in NE by lia.
    assert (Z.abs (mag_value f h * D - N) = 0) by lia. assert (mag_value f h = mag_value f g) by nia.
    destruct (Z.lt_ge_cases g h); [pose proof (mv_mono f K g h ltac:(lia))|pose proof (mv_mono f K h g ltac:(lia))]; lia.
  Qed.
End Z_errors.

(** ---------- the value of a signed pattern ---------- *)
Section Values.
  Variable f : fmt.
  Hypothesis K : known f.
  Lemma put_val neg g : 0 <= g < finf f -> fin f (put_sign f neg g) /\ fval f (put_sign f neg g) = if neg then - mag_value f g else mag_value f g.
  Proof.
    intros Hg. destruct (inf_bound f K) as [[I1 I2] _]. destruct (put_ok f K neg g ltac:(lia)) as (P1 & P2 & P3).
    destruct (classes f K (put_sign f neg g)) as (_ & _ & _ & N & FN & _). split.
    - split; [exact P1|]. apply FN. unfold is_nan, is_inf. rewrite P2. split; [apply Z.ltb_ge; lia|apply Z.eqb_neq; lia].
    - unfold fval. rewrite <- (mv_mag f), P2. destruct (fneg f (put_sign f neg g)) eqn:E; destruct neg; try reflexivity; intuition congruence.
  Qed.
  Lemma fin_mag x : fin f x -> 0 <= fmag f x < finf f /\ is_nan f x = false /\ is_inf f x = false.
  Proof.
    intros [Hx F]. destruct (classes f K x) as (_ & _ & _ & N & FN & _). apply FN in F. destruct F as [F1 F2]. split; [|tauto].
    unfold is_nan, is_inf in *. assert (0 <= fmag f x) by (apply Z.mod_pos_bound; destruct K as [-> | ->]; reflexivity). lia.
  Qed.
  Lemma abs_fval x : Z.abs (fval f x) = fabsval f x.
  Proof. pose proof (absval_pos f K x). unfold fval. destruct (fneg f x); lia. Qed.
  Lemma fval_bound x : fin f x -> Z.abs (fval f x) <= max_fin f.
  Proof. intros F. rewrite abs_fval. apply fin_mag in F. rewrite <- (mv_mag f). apply mv_le; [assumption|]. lia. Qed.
  Lemma add_fin x y : fin f x -> fin f y -> Z.abs (fval f x + fval f y) <= max_fin f ->
    fin f (f_add f x y) /\ 2 * 2 ^ fbits f * Z.abs (fval f (f_add f x y) - (fval f x + fval f y)) <= Z.abs (fval f x + fval f y).
  Proof.
    intros Fx Fy B. destruct (fin_mag x Fx) as (_ & N1 & I1). destruct (fin_mag y Fy) as (_ & N2 & I2). unfold f_add. rewrite N1, N2, I1, I2. cbn [orb].
    change (signed_value f) with (fval f). set (s := fval f x + fval f y) in *. pose proof (P_pos f K) as PP. destruct (inf_bound f K) as [[J1 J2] _]. destruct (Z.eqb_spec s 0) as [E|E].
    - destruct (put_val (fneg f x && fneg f y) 0 ltac:(lia)) as [A V]. split; [exact A|]. rewrite V, (mv_0 f K), E. destruct (_ && _); cbn; lia.
    - destruct (rnd_err f K (Z.abs s) 1 ltac:(lia) ltac:(lia) ltac:(lia)) as [R Er]. destruct (put_val (s <? 0) _ R) as [A V]. split; [exact A|]. rewrite V.
      set (g := rnd_mag f (Z.abs s) 1) in *. rewrite Z.mul_1_r in Er.
      assert (Q : Z.abs ((if s <? 0 then - mag_value f g else mag_value f g) - s) = Z.abs (mag_value f g - Z.abs s)) by (destruct (Z.ltb_spec s 0); lia).
      rewrite Q. rewrite Z.mul_1_r in Er. destruct (Z.max_spec (2 ^ fbits f) (Z.abs s)) as [[L EE]|[L EE]]; rewrite EE in Er; [exact Er|].
      assert (Z.abs (mag_value f g - Z.abs s) = 0) by nia. nia.
  Qed.
  (* exact sums *)
  Lemma add_exact x y g : fin f x -> fin f y -> 0 <= g < finf f -> mag_value f g = Z.abs (fval f x + fval f y) ->
    fin f (f_add f x y) /\ fval f (f_add f x y) = fval f x + fval f y.
  Proof.
    intros Fx Fy Hg E. assert (B : Z.abs (fval f x + fval f y) <= max_fin f) by (rewrite <- E; apply mv_le; [assumption|lia]).
    destruct (add_fin x y Fx Fy B) as [A _]. split; [exact A|]. clear A.
    destruct (fin_mag x Fx) as (_ & N1 & I1). destruct (fin_mag y Fy) as (_ & N2 & I2). unfold f_add. rewrite N1, N2, I1, I2. cbn [orb].
    change (signed_value f) with (fval f). set (s := fval f x + fval f y) in *. destruct (inf_bound f K) as [[J1 J2] _]. destruct (Z.eqb_spec s 0) as [E0|E0].
    - destruct (put_val (fneg f x && fneg f y) 0 ltac:(lia)) as [_ ->]. rewrite (mv_0 f K), E0. now destruct (_ && _).
    - rewrite (rnd_exact f K (Z.abs s) 1 g) by lia. destruct (put_val (s <? 0) g Hg) as [_ ->]. rewrite E. destruct (Z.ltb_spec s 0); lia.
  Qed.
  Lemma flip_fin x : fin f x -> fin f (f_flip f x) /\ fval f (f_flip f x) = - fval f x.
  Proof.
    intros [Hx F]. destruct (flip_val f K x Hx) as [V _]. destruct (flip_sign f K x Hx) as (R & _ & M). split; [|exact V]. split; [exact R|].
    unfold finite_p, fexp in *. now rewrite M.
  Qed.
  Lemma sub_fin x y : fin f x -> fin f y -> Z.abs (fval f x - fval f y) <= max_fin f ->
    fin f (f_sub f x y) /\ 2 * 2 ^ fbits f * Z.abs (fval f (f_sub f x y) - (fval f x - fval f y)) <= Z.abs (fval f x - fval f y).
  Proof.
    intros Fx Fy B. destruct (flip_fin y Fy) as [F V]. unfold f_sub. replace (fval f x - fval f y) with (fval f x + fval f (f_flip f y)) in * by lia. now apply add_fin.
  Qed.
  Lemma mul_sign x y v : 0 <= v -> v = Z.abs (fval f x * fval f y) -> forall w : Z, Z.abs ((if xorb (fneg f x) (fneg f y) then - w else w) * one_val f - fval f x * fval f y) = Z.abs (w * one_val f - v).
  Proof.
    intros Hv -> w. pose proof (absval_pos f K x). pose proof (absval_pos f K y). unfold fval. set (a := fabsval f x) in *. set (b := fabsval f y) in *.
    assert (0 <= a * b) by nia. set (o := one_val f). destruct (fneg f x), (fneg f y); cbn [xorb].
    - replace (- a * - b) with (a * b) by ring. rewrite (Z.abs_eq (a * b)) by lia. reflexivity.
    - replace (- a * b) with (- (a * b)) by ring. rewrite Z.abs_opp, (Z.abs_eq (a * b)) by lia. lia.
    - replace (a * - b) with (- (a * b)) by ring. rewrite Z.abs_opp, (Z.abs_eq (a * b)) by lia. lia.
    - rewrite (Z.abs_eq (a * b)) by lia. reflexivity.
  Qed.
  Lemma mul_fin x y : fin f x -> fin f y -> Z.abs (fval f x * fval f y) <= max_fin f * one_val f ->
    fin f (f_mul f x y) /\ 2 * 2 ^ fbits f * Z.abs (fval f (f_mul f x y) * one_val f - fval f x * fval f y) <= Z.max (2 ^ fbits f * one_val f) (Z.abs (fval f x * fval f y)).
  Proof.
    intros Fx Fy B. destruct (fin_mag x Fx) as (_ & N1 & I1). destruct (fin_mag y Fy) as (_ & N2 & I2). unfold f_mul. rewrite N1, N2, I1, I2. cbn [orb andb]. rewrite andb_false_r.
    destruct (uv f K) as [U1 U2]. rewrite U1. change (mag_value f (fmag f x)) with (fabsval f x). change (mag_value f (fmag f y)) with (fabsval f y).
    assert (V : fabsval f x * fabsval f y = Z.abs (fval f x * fval f y)) by (rewrite Z.abs_mul, !abs_fval; reflexivity). rewrite V.
    set (v := Z.abs (fval f x * fval f y)) in *.
    destruct (rnd_err f K v (one_val f) ltac:(lia) U2 B) as [R Er]. destruct (put_val (xorb (fneg f x) (fneg f y)) _ R) as [A W]. split; [exact A|]. rewrite W.
    rewrite (mul_sign x y v) by (unfold v; lia). exact Er.
  Qed.
  Lemma mul_exact x y g : fin f x -> fin f y -> 0 <= g < finf f -> mag_value f g * one_val f = Z.abs (fval f x * fval f y) ->
    fin f (f_mul f x y) /\ fval f (f_mul f x y) * one_val f = fval f x * fval f y.
  Proof.
    intros Fx Fy Hg E. destruct (uv f K) as [U1 U2]. assert (B : Z.abs (fval f x * fval f y) <= max_fin f * one_val f).
    { rewrite <- E. apply Z.mul_le_mono_nonneg_r; [lia|]. apply mv_le; [assumption|lia]. }
    destruct (mul_fin x y Fx Fy B) as [A _]. split; [exact A|]. clear A.
    destruct (fin_mag x Fx) as (_ & N1 & I1). destruct (fin_mag y Fy) as (_ & N2 & I2). unfold f_mul. rewrite N1, N2, I1, I2. cbn [orb andb]. rewrite andb_false_r.
    rewrite U1. change (mag_value f (fmag f x)) with (fabsval f x). change (mag_value f (fmag f y)) with (fabsval f y).
    assert (V : fabsval f x * fabsval f y = Z.abs (fval f x * fval f y)) by (rewrite Z.abs_mul, !abs_fval; reflexivity). rewrite V.
    rewrite (rnd_exact f K _ (one_val f) g) by (try assumption; lia). destruct (put_val (xorb (fneg f x) (fneg f y)) g Hg) as [_ ->].
    pose proof (mul_sign x y (Z.abs (fval f x * fval f y)) ltac:(lia) eq_refl (mag_value f g)) as Q. lia.
  Qed.
End Values.
