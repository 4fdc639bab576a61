(** Arith_Props.v - C55 (float +, -, *, /), C54 (floor_divide), C44 (minimum/maximum and NaN). *)
From Verif Require Import Base Kernel_Model Kernel_Proofs Kernel_Props Float_Model Compare_Model Compare_Proofs Compare_Props Unary_Model Unary_Proofs Unary_Props UnaryVal_Props Round_Model Round_Props Arith_Model.

(** ---------- specification ---------- *)
(** g, a magnitude pattern up to infinity, is nearest to N/D; on a tie it is the even one.  Values are [fabsval]. *)
Definition nearest_even (f : fmt) (N D g : Z) : Prop :=
  0 <= g <= finf f /\
  forall z, 0 <= z <= finf f -> z <> g ->
    Z.abs (fabsval f g * D - N) < Z.abs (fabsval f z * D - N) \/
    (Z.abs (fabsval f g * D - N) = Z.abs (fabsval f z * D - N) /\ Z.even g = true).
Definition neg_p (f : fmt) (x : Z) : Prop := 2 ^ (fwidth f - 1) <= x.
Definition opposite (f : fmt) (x y : Z) : Prop := ~ (neg_p f x <-> neg_p f y).
Definition zero_p (f : fmt) (x : Z) : Prop := fmag f x = 0.
(** r is a pattern of sign [neg] and magnitude g *)
Definition has (f : fmt) (neg : Prop) (g r : Z) : Prop := fmag f r = g /\ (neg_p f r <-> neg).

(** IEEE-754 addition of x and [sy] = the second operand's value, [ny] its sign *)
Definition is_sum (f : fmt) (x y r : Z) : Prop :=
  (fnan f x \/ fnan f y -> fnan f r) /\
  (infinite_p f x /\ infinite_p f y /\ opposite f x y -> fnan f r) /\
  (infinite_p f x /\ ~ fnan f y /\ ~ (infinite_p f y /\ opposite f x y) -> r = x) /\
  (finite_p f x /\ infinite_p f y -> r = y) /\
  (finite_p f x /\ finite_p f y ->
     let s := fval f x + fval f y in
     (s <> 0 -> exists g, has f (s < 0) g r /\ nearest_even f (Z.abs s) 1 g) /\
     (s = 0 -> has f (neg_p f x /\ neg_p f y) 0 r)).
(** the negation of y, whose sum with x is the difference *)
Definition is_difference (f : fmt) (x y r : Z) : Prop :=
  exists y', (fnan f y' <-> fnan f y) /\ fmag f y' = fmag f y /\ (neg_p f y' <-> ~ neg_p f y) /\ is_sum f x y' r.
Definition is_product (f : fmt) (x y r : Z) : Prop :=
  (fnan f x \/ fnan f y -> fnan f r) /\
  ((infinite_p f x /\ zero_p f y) \/ (zero_p f x /\ infinite_p f y) -> fnan f r) /\
  ((infinite_p f x /\ ~ fnan f y /\ ~ zero_p f y) \/ (infinite_p f y /\ ~ fnan f x /\ ~ zero_p f x) -> has f (opposite f x y) (finf f) r) /\
  (finite_p f x /\ finite_p f y ->
     exists g, has f (opposite f x y) g r /\ nearest_even f (fabsval f x * fabsval f y) (one_val f) g).
Definition is_quotient (f : fmt) (x y r : Z) : Prop :=
  (fnan f x \/ fnan f y -> fnan f r) /\
  ((infinite_p f x /\ infinite_p f y) \/ (zero_p f x /\ zero_p f y) -> fnan f r) /\
  ((infinite_p f x /\ finite_p f y) \/ (finite_p f x /\ ~ zero_p f x /\ zero_p f y) -> has f (opposite f x y) (finf f) r) /\
  (finite_p f x /\ infinite_p f y -> has f (opposite f x y) 0 r) /\
  (finite_p f x /\ finite_p f y /\ ~ zero_p f y ->
     exists g, has f (opposite f x y) g r /\ nearest_even f (fabsval f x * one_val f) (fabsval f y) g).

(** ---------- rounding ---------- *)
Section Rnd.
  Variable f : fmt.
  Hypothesis K : known f.
  Lemma mv_small g : 0 <= g < 2 ^ (fwidth f - 1) -> mag_value f g = fabsval f g.
  Proof. intros H. unfold mag_value, fabsval, fexp, ffrac, fmag. rewrite (Z.mod_small g (2 ^ (fwidth f - 1))) by lia. reflexivity. Qed.
  Lemma mv_mag x : mag_value f (fmag f x) = fabsval f x.
  Proof. reflexivity. Qed.
  Lemma mv_mono g h : 0 <= g < h -> mag_value f g < mag_value f h.
  Proof. exact (G_mono f (kb f K) (kw f K) g h). Qed.
  Lemma mv_le g h : 0 <= g <= h -> mag_value f g <= mag_value f h.
  Proof. intros H. destruct (Z.eq_dec g h) as [->|]; [lia|]. pose proof (mv_mono g h). lia. Qed.
  Lemma mv_0 : mag_value f 0 = 0. Proof. exact (G_0 f (kb f K)). Qed.
  Lemma mv_nonneg g : 0 <= g -> 0 <= mag_value f g.
  Proof. intros H. rewrite <- mv_0. apply mv_le. lia. Qed.
  Lemma inf_bound : 0 < finf f < 2 ^ (fwidth f - 1) /\ Z.even (finf f) = true.
  Proof. destruct K as [-> | ->]; vm_compute; repeat split. Qed.
  Definition fits N D g := g <= finf f /\ mag_value f g * D <= N.
  Lemma search_ok N D k : 0 <= N -> forall g, 0 <= g -> fits N D g -> ~ fits N D (g + 2 ^ Z.of_nat k) ->
    let r := search f N D k g in 0 <= r /\ fits N D r /\ ~ fits N D (r + 1).
  Proof.
    intros HN. induction k as [|k IH]; intros g Hg F NF.
    - cbn. split; [exact Hg|]. split; [exact F|exact NF].
    - cbn [search]. assert (E : 2 ^ Z.of_nat (S k) = 2 ^ Z.of_nat k + 2 ^ Z.of_nat k) by (rewrite Nat2Z.inj_succ, Z.pow_succ_r by lia; lia).
      assert (0 < 2 ^ Z.of_nat k) by (apply Z.pow_pos_nonneg; lia).
      destruct ((g + 2 ^ Z.of_nat k <=? finf f) && (mag_value f (g + 2 ^ Z.of_nat k) * D <=? N)) eqn:C.
      + apply IH; [lia|unfold fits; lia|]. rewrite <- Z.add_assoc, <- E. exact NF.
      + apply IH; [exact Hg|exact F|]. unfold fits. lia.
  Qed.
  Lemma rnd_ok N D : 0 <= N -> 0 < D -> nearest_even f N D (rnd_mag f N D).
  Proof.
    intros HN HD. destruct inf_bound as [[I1 I2] I3]. unfold rnd_mag. set (k := Z.to_nat (fwidth f - 1)).
    assert (Hk : Z.of_nat k = fwidth f - 1) by (unfold k; destruct K as [-> | ->]; reflexivity).
    pose proof (search_ok N D k HN 0 ltac:(lia)) as S. cbv zeta in S. destruct S as (S1 & [S2 S3] & S4).
    { split; [lia|]. rewrite mv_0. lia. }
    { intros [C _]. rewrite Hk in C. lia. }
    set (g := search f N D k 0) in *. clearbody g.
    assert (LO : forall z, 0 <= z <= g -> mag_value f z * D <= mag_value f g * D) by (intros z Hz; apply Z.mul_le_mono_nonneg_r; [lia|now apply mv_le]).
    assert (LO' : forall z, 0 <= z < g -> mag_value f z * D < mag_value f g * D) by (intros z Hz; apply Z.mul_lt_mono_pos_r; [lia|now apply mv_mono]).
    assert (HI' : forall z, g + 1 < z -> mag_value f (g + 1) * D < mag_value f z * D) by (intros z Hz; apply Z.mul_lt_mono_pos_r; [lia|apply mv_mono; lia]).
    destruct (Z.leb_spec (finf f) g) as [C|C].
    - assert (g = finf f) as -> by lia. split; [lia|]. intros z Hz Hne. rewrite <- !mv_small by lia. left. pose proof (LO' z ltac:(lia)). lia.
    - assert (S5 : N < mag_value f (g + 1) * D) by (destruct (Z.lt_ge_cases N (mag_value f (g + 1) * D)) as [|Q]; [assumption|destruct S4; split; lia]).
      assert (GG : forall r, (r = g /\ 2 * N <= mag_value f g * D + mag_value f (g + 1) * D) \/ (r = g + 1 /\ mag_value f g * D + mag_value f (g + 1) * D <= 2 * N) ->
        (2 * N = mag_value f g * D + mag_value f (g + 1) * D -> Z.even r = true) -> nearest_even f N D r).
      { intros r Hr Hev. split; [lia|]. intros z Hz Hne. rewrite <- !mv_small by lia.
        assert (Cz : z <= g \/ z = g + 1 \/ g + 1 < z) by lia.
        destruct Hr as [[-> Hr]|[-> Hr]].
        - destruct Cz as [Cz|[-> | Cz]].
          + left. pose proof (LO' z ltac:(lia)). lia.
          + destruct (Z.eq_dec (2 * N) (mag_value f g * D + mag_value f (g + 1) * D)) as [E|E]; [right; split; [lia|auto]|left; lia].
          + left. pose proof (HI' z Cz). lia.
        - destruct Cz as [Cz|[-> | Cz]]; [|lia|].
          + assert (z = g \/ z < g) as [-> | Lz] by lia.
            * destruct (Z.eq_dec (2 * N) (mag_value f g * D + mag_value f (g + 1) * D)) as [E|E]; [right; split; [lia|auto]|left; lia].
            * left. pose proof (LO' z ltac:(lia)). lia.
          + left. pose proof (HI' z Cz). lia. }
      destruct (Z.compare_spec (2 * N) (mag_value f g * D + mag_value f (g + 1) * D)) as [E|E|E].
      + destruct (Z.even g) eqn:EV; apply GG; try (left; split; lia); try (right; split; lia).
        * intros _. exact EV.
        * intros _. rewrite Z.add_1_r, Z.even_succ, <- Z.negb_even, EV. reflexivity.
      + apply GG; [left; split; lia|lia].
      + apply GG; [right; split; lia|lia].
  Qed.
  (** the specification has one solution *)
  Lemma nearest_unique N D g h : nearest_even f N D g -> nearest_even f N D h -> 0 < D -> g = h.
  Proof.
    intros [Rg Ng] [Rh Nh] HD. destruct (Z.eq_dec g h) as [|Hne]; [assumption|exfalso].
    destruct inf_bound as [[I1 I2] _].
    assert (BOTH : Z.abs (fabsval f g * D - N) = Z.abs (fabsval f h * D - N) /\ Z.even g = true /\ Z.even h = true).
    { destruct (Ng h Rh ltac:(congruence)) as [L|[L E]], (Nh g Rg Hne) as [L'|[L' E']]; try lia. repeat split; assumption. }
    destruct BOTH as (E & Eg & Eh).
    assert (W : forall a b, 0 <= a < b -> b <= finf f -> Z.even a = true -> Z.even b = true ->
       Z.abs (fabsval f a * D - N) = Z.abs (fabsval f b * D - N) -> nearest_even f N D a -> False).
    { intros a b Hab Hb Ea Eb Ed [_ Na]. assert (a + 1 <> b) by (intros <-; rewrite Z.add_1_r, Z.even_succ, <- Z.negb_even, Ea in Eb; discriminate Eb).
      pose proof (mv_mono a (a + 1) ltac:(lia)) as M1. pose proof (mv_mono (a + 1) b ltac:(lia)) as M2. rewrite !mv_small in M1, M2 by lia.
      assert (M1' : fabsval f a * D < fabsval f (a + 1) * D) by (apply Z.mul_lt_mono_pos_r; lia).
      assert (M2' : fabsval f (a + 1) * D < fabsval f b * D) by (apply Z.mul_lt_mono_pos_r; lia).
      destruct (Na (a + 1) ltac:(lia) ltac:(lia)) as [L|[L _]]; lia. }
    destruct (Z.lt_ge_cases g h) as [L|L].
    - apply (W g h); try lia; try assumption. split; assumption.
    - apply (W h g); try lia; try assumption. split; assumption.
  Qed.
End Rnd.

(** ---------- the operations ---------- *)
Section Ops.
  Variable f : fmt.
  Hypothesis K : known f.
  Let H := 2 ^ (fwidth f - 1).
  Lemma put_ok neg g : 0 <= g < H -> 0 <= put_sign f neg g < 2 ^ fwidth f /\ fmag f (put_sign f neg g) = g /\ (neg_p f (put_sign f neg g) <-> neg = true).
  Proof.
    intros Hg. destruct (top f K) as [T1 T2]. fold H in T1, T2. unfold put_sign, neg_p. fold H.
    assert (R : 0 <= (if neg then H else 0) + g < 2 ^ fwidth f) by (destruct neg; lia). split; [exact R|].
    destruct (mag_cases f K _ R) as [(_ & M & L)|(_ & M & L)]; fold H in M, L; rewrite M; destruct neg; intuition (try lia; try discriminate).
  Qed.
  Lemma qnan_ok : 0 <= q_nan f < 2 ^ fwidth f /\ fnan f (q_nan f).
  Proof. destruct K as [-> | ->]; (split; [vm_compute; split; [discriminate|reflexivity]|split; [reflexivity|discriminate]]). Qed.
  Lemma classes x : (is_nan f x = true <-> fnan f x) /\ (is_inf f x = true <-> infinite_p f x) /\ (is_zero f x = true <-> zero_p f x) /\ (fneg f x = true <-> neg_p f x) /\
    (finite_p f x <-> is_nan f x = false /\ is_inf f x = false) /\ (is_nan f x = true -> is_inf f x = false) /\ (is_zero f x = true -> is_nan f x = false /\ is_inf f x = false).
  Proof.
    split; [apply class_nan, K|]. split; [apply class_inf, K|]. split; [apply Z.eqb_eq|]. split; [apply Z.leb_le|].
    rewrite <- (class_finite f K x). unfold c_isfinite, is_nan, is_inf, is_zero. destruct (inf_bound f K) as [[I1 I2] _].
    rewrite !Z.ltb_lt, Z.ltb_ge, Z.eqb_neq, !Z.eqb_eq. lia.
  Qed.
  Lemma sv x : signed_value f x = fval f x. Proof. reflexivity. Qed.
  Lemma uv : unit_value f = one_val f /\ 0 < one_val f. Proof. destruct K as [-> | ->]; vm_compute; split; reflexivity. Qed.
  Lemma rnd_range N D : 0 <= N -> 0 < D -> 0 <= rnd_mag f N D < H.
  Proof. intros HN HD. destruct (rnd_ok f K N D HN HD) as [R _]. destruct (inf_bound f K) as [[I1 I2] _]. fold H in I2. lia. Qed.

  Ltac facts x := let a := fresh "Nan" in let b := fresh "Inf" in let c := fresh "Zer" in let d := fresh "Neg" in let e := fresh "Fin" in let g := fresh "X" in let h := fresh "X" in
    destruct (classes x) as (a & b & c & d & e & g & h).

  Lemma add_ok x y : 0 <= x < 2 ^ fwidth f -> 0 <= y < 2 ^ fwidth f -> 0 <= f_add f x y < 2 ^ fwidth f /\ is_sum f x y (f_add f x y).
  Proof.
    intros Hx Hy. facts x. facts y. destruct qnan_ok as [Q1 Q2]. unfold f_add, is_sum, opposite. change (signed_value f) with (fval f).
    destruct (is_nan f x) eqn:Nx; cbn [orb]; [split; [exact Q1|intuition congruence]|].
    destruct (is_nan f y) eqn:Ny; cbn [orb]; [split; [exact Q1|intuition congruence]|].
    destruct (is_inf f x) eqn:Ix.
    { destruct (is_inf f y) eqn:Iy; cbn [andb].
      - destruct (fneg f x) eqn:Sx, (fneg f y) eqn:Sy; cbn [xorb]; (split; [assumption|]); intuition congruence.
      - split; [exact Hx|]. intuition congruence. }
    destruct (is_inf f y) eqn:Iy; [split; [exact Hy|]; intuition congruence|].
    set (s := fval f x + fval f y). destruct (Z.eqb_spec s 0) as [E|E].
    - destruct (put_ok (fneg f x && fneg f y) 0) as (P1 & P2 & P3); [destruct (top f K); unfold H; lia|]. split; [exact P1|].
      split; [|split; [|split; [|split]]]; try (intuition congruence). intros _. cbv zeta. split; [intros C; contradiction|]. intros _. split; [exact P2|].
      rewrite P3. rewrite andb_true_iff. tauto.
    - pose proof (rnd_range (Z.abs s) 1 ltac:(lia) ltac:(lia)) as R. destruct (put_ok (s <? 0) _ R) as (P1 & P2 & P3). split; [exact P1|].
      split; [|split; [|split; [|split]]]; try (intuition congruence). intros _. cbv zeta. split; [|intros C; contradiction]. intros _.
      exists (rnd_mag f (Z.abs s) 1). split; [split; [exact P2|rewrite P3; apply Z.ltb_lt]|]. apply rnd_ok; [exact K|lia|lia].
  Qed.
  Lemma sub_ok x y : 0 <= x < 2 ^ fwidth f -> 0 <= y < 2 ^ fwidth f -> 0 <= f_sub f x y < 2 ^ fwidth f /\ is_difference f x y (f_sub f x y).
  Proof.
    intros Hx Hy. destruct (flip_sign f K y Hy) as (F1 & F2 & F3). destruct (add_ok x (f_flip f y) Hx F1) as [A B].
    split; [exact A|]. exists (f_flip f y). destruct (same_mag f _ _ F3) as (_ & S & _). split; [exact S|]. split; [exact F3|]. split; [|exact B].
    destruct (classes y) as (_ & _ & _ & N1 & _). destruct (classes (f_flip f y)) as (_ & _ & _ & N2 & _). rewrite <- N1, <- N2, F2. destruct (fneg f y); cbn; intuition congruence.
  Qed.
  Lemma xor_opp x y : xorb (fneg f x) (fneg f y) = true <-> opposite f x y.
  Proof.
    unfold opposite. destruct (classes x) as (_ & _ & _ & N1 & _). destruct (classes y) as (_ & _ & _ & N2 & _). rewrite <- N1, <- N2.
    destruct (fneg f x), (fneg f y); cbn; intuition congruence.
  Qed.
  Lemma mul_ok x y : 0 <= x < 2 ^ fwidth f -> 0 <= y < 2 ^ fwidth f -> 0 <= f_mul f x y < 2 ^ fwidth f /\ is_product f x y (f_mul f x y).
  Proof.
    intros Hx Hy. facts x. facts y. destruct qnan_ok as [Q1 Q2]. destruct (inf_bound f K) as [[I1 I2] _]. fold H in I2. destruct uv as [U1 U2].
    pose proof (xor_opp x y) as XO. unfold f_mul, is_product. change (mag_value f (fmag f x)) with (fabsval f x). change (mag_value f (fmag f y)) with (fabsval f y). rewrite U1. set (sg := xorb _ _) in *.
    assert (PI : 0 <= put_sign f sg (finf f) < 2 ^ fwidth f /\ has f (opposite f x y) (finf f) (put_sign f sg (finf f))).
    { destruct (put_ok sg (finf f) ltac:(lia)) as (P1 & P2 & P3). split; [exact P1|]. split; [exact P2|]. tauto. }
    destruct PI as [PI1 PI2].
    destruct (is_nan f x) eqn:Nx; cbn [orb]; [split; [exact Q1|intuition congruence]|].
    destruct (is_nan f y) eqn:Ny; cbn [orb]; [split; [exact Q1|intuition congruence]|].
    destruct (is_inf f x) eqn:Ix; cbn [andb orb].
    { destruct (is_zero f y) eqn:Zy; cbn [andb orb]; [split; [exact Q1|]; intuition congruence|].
      replace (is_zero f x && is_inf f y) with false by (destruct (is_zero f x) eqn:Zx; [intuition congruence|reflexivity]).
      split; [exact PI1|]. intuition congruence. }
    destruct (is_zero f x) eqn:Zx; cbn [andb].
    - destruct (is_inf f y) eqn:Iy; [split; [exact Q1|]; intuition congruence|].
      pose proof (rnd_range (fabsval f x * fabsval f y) (one_val f)) as R. pose proof (absval_pos f K x). pose proof (absval_pos f K y). specialize (R ltac:(nia) U2).
      destruct (put_ok sg _ R) as (P1 & P2 & P3). split; [exact P1|]. split; [|split; [|split]]; try (intuition congruence). intros _. eexists. split; [split; [exact P2|tauto]|]. apply rnd_ok; [exact K|nia|exact U2].
    - destruct (is_inf f y) eqn:Iy; [split; [exact PI1|]; intuition congruence|].
      pose proof (rnd_range (fabsval f x * fabsval f y) (one_val f)) as R. pose proof (absval_pos f K x). pose proof (absval_pos f K y). specialize (R ltac:(nia) U2).
      destruct (put_ok sg _ R) as (P1 & P2 & P3). split; [exact P1|]. split; [|split; [|split]]; try (intuition congruence). intros _. eexists. split; [split; [exact P2|tauto]|]. apply rnd_ok; [exact K|nia|exact U2].
  Qed.
  Lemma div_ok x y : 0 <= x < 2 ^ fwidth f -> 0 <= y < 2 ^ fwidth f -> 0 <= f_div f x y < 2 ^ fwidth f /\ is_quotient f x y (f_div f x y).
  Proof.
    intros Hx Hy. facts x. facts y. destruct qnan_ok as [Q1 Q2]. destruct (inf_bound f K) as [[I1 I2] _]. fold H in I2. destruct uv as [U1 U2].
    pose proof (xor_opp x y) as XO. unfold f_div, is_quotient. change (mag_value f (fmag f x)) with (fabsval f x). change (mag_value f (fmag f y)) with (fabsval f y). rewrite U1. set (sg := xorb _ _) in *.
    destruct (put_ok sg (finf f) ltac:(lia)) as (PI1 & PI2 & PI3). destruct (put_ok sg 0 ltac:(lia)) as (PZ1 & PZ2 & PZ3).
    assert (PI : has f (opposite f x y) (finf f) (put_sign f sg (finf f))) by (split; [exact PI2|tauto]).
    assert (PZ : has f (opposite f x y) 0 (put_sign f sg 0)) by (split; [exact PZ2|tauto]).
    destruct (is_nan f x) eqn:Nx; cbn [orb]; [split; [exact Q1|intuition congruence]|].
    destruct (is_nan f y) eqn:Ny; cbn [orb]; [split; [exact Q1|intuition congruence]|].
    destruct (is_inf f x) eqn:Ix; cbn [andb orb].
    { destruct (is_inf f y) eqn:Iy; cbn [orb]; [split; [exact Q1|]; intuition congruence|].
      destruct (is_zero f x) eqn:Zx; [intuition congruence|]. cbn [andb]. split; [exact PI1|]. intuition congruence. }
    destruct (is_zero f y) eqn:Zy.
    { destruct (is_zero f x) eqn:Zx; cbn [andb]; [split; [exact Q1|]; intuition congruence|]. split; [exact PI1|]. intuition congruence. }
    rewrite andb_false_r. destruct (is_inf f y) eqn:Iy; [split; [exact PZ1|]; intuition congruence|].
    assert (YP : 0 < fabsval f y).
    { pose proof (absval_pos f K y). pose proof (absval_zero f K y) as AZ. enough (fabsval f y <> 0) by lia. rewrite AZ. intros C. apply Zer0 in C. discriminate C. }
    pose proof (absval_pos f K x) as XP. pose proof (rnd_range (fabsval f x * one_val f) (fabsval f y) ltac:(nia) YP) as R.
    destruct (put_ok sg _ R) as (P1 & P2 & P3). split; [exact P1|]. split; [|split; [|split; [|split]]]; try (intuition congruence).
    intros _. eexists. split; [split; [exact P2|tauto]|]. apply rnd_ok; [exact K|nia|exact YP].
  Qed.
  Lemma add_comm x y : 0 <= x < 2 ^ fwidth f -> 0 <= y < 2 ^ fwidth f -> f_add f x y = f_add f y x.
  Proof.
    intros Hx Hy. unfold f_add. rewrite orb_comm, (Z.add_comm (signed_value f x)), (andb_comm (fneg f x)), (xorb_comm (fneg f x)).
    destruct (is_nan f y || is_nan f x); [reflexivity|].
    destruct (is_inf f x) eqn:Ix, (is_inf f y) eqn:Iy; cbn [andb]; try reflexivity.
    destruct (xorb (fneg f y) (fneg f x)) eqn:X; [reflexivity|].
    unfold is_inf in *. destruct (mag_cases f K x Hx) as [(Sx & Mx & _)|(Sx & Mx & _)], (mag_cases f K y Hy) as [(Sy & My & _)|(Sy & My & _)];
      rewrite Sx, Sy in X; try discriminate X; lia.
  Qed.
  Lemma mul_comm x y : f_mul f x y = f_mul f y x.
  Proof.
    unfold f_mul. rewrite (orb_comm (is_nan f x)), (xorb_comm (fneg f x)), (Z.mul_comm (mag_value f (fmag f x))), (orb_comm (is_inf f x) (is_inf f y)).
    rewrite (orb_comm (is_inf f x && is_zero f y)), (andb_comm (is_zero f x)), (andb_comm (is_inf f x)). reflexivity.
  Qed.
End Ops.

(** ---------- loops ---------- *)
Lemma SimpleMathOpSlow_elementwise sz op a1 a2 out n s1 s2 so m : good_sz sz -> closed_op sz op ->
  0 <= n -> bytes_ok m -> operands_ok sz a1 s1 a2 s2 out so n ->
  elementwise sz op a1 s1 a2 s2 out so n m (SimpleMathOpSlow sz op a1 a2 out n s1 s2 so m).
Proof.
  intros Hg Hcl Hn Hm Hop. pose proof (good_pos sz Hg) as Hs. pose proof Hop as (Ho & H1 & H2).
  set (F := fun i => op (ld sz m (a1 + i * s1)) (ld sz m (a2 + i * s2))).
  assert (HP : forall i, 0 <= i < n -> pat sz (F i)) by (intros i Hi; apply Hcl; apply ld_pat; try lia; exact Hm).
  assert (G : forall x y, (x = Ptr a1 s1 \/ (s1 = 0 /\ x = Val (ld sz m a1))) -> (y = Ptr a2 s2 \/ (s2 = 0 /\ y = Val (ld sz m a2))) ->
     elementwise sz op a1 s1 a2 s2 out so n m (scalar_loop sz op x y out so n m)).
  { intros x y Hx Hy.
    assert (Dx : delivers sz out so n F m x 0 (fun i => ld sz m (a1 + i * s1))).
    { destruct Hx as [-> | [-> ->]].
      - pose proof (delivers_ptr sz out so n F m a1 s1 0 ltac:(lia) H1) as D. now replace (a1 + 0 * s1) with a1 in D by lia.
      - intros k i m' _ _ _ _. cbn. f_equal. lia. }
    assert (Dy : delivers sz out so n F m y 0 (fun i => ld sz m (a2 + i * s2))).
    { destruct Hy as [-> | [-> ->]].
      - pose proof (delivers_ptr sz out so n F m a2 s2 0 ltac:(lia) H2) as D. now replace (a2 + 0 * s2) with a2 in D by lia.
      - intros k i m' _ _ _ _. cbn. f_equal. lia. }
    pose proof (scalar_loop_upto sz op out so n F m x y _ _ 0 n m ltac:(lia) Ho ltac:(lia) Hn ltac:(lia) Dx Dy (fun i _ => eq_refl) HP (upto_0 sz out so F m)) as U.
    rewrite Z.add_0_l in U. replace (out + 0 * so) with out in U by lia. exact U. }
  unfold SimpleMathOpSlow.
  destruct ((so =? sz) && negb (s1 =? 0) && negb (s2 =? 0) && (s2 =? sz) && (s1 =? sz)) eqn:E1.
  { assert (so = sz /\ s1 = sz /\ s2 = sz) as (-> & -> & ->) by lia. apply G; now left. }
  destruct ((so =? sz) && (s1 =? 0) && (s2 =? sz)) eqn:E2.
  { assert (so = sz /\ s1 = 0 /\ s2 = sz) as (-> & -> & ->) by lia. apply G; [now right|now left]. }
  destruct ((so =? sz) && (s2 =? 0) && (s1 =? sz)) eqn:E3.
  { assert (so = sz /\ s2 = 0 /\ s1 = sz) as (-> & -> & ->) by lia. apply G; [now left|now right]. }
  apply G; now left.
Qed.

Definition fscalar (u : fop) (f : fmt) : Z -> Z -> Z :=
  match u with FADD => f_add f | FSUB => f_sub f | FMUL => f_mul f | FDIV => f_div f | FFLOORDIV => f_floordiv f | FMIN => f_min f | FMAX => f_max f end.
Lemma fscalar_closed u f : known f -> closed_op (fsize f) (fscalar u f).
Proof.
  intros K x y Hx Hy. rewrite fpat in * by exact K. destruct u; cbn [fscalar].
  - now apply add_ok.
  - now apply sub_ok.
  - now apply mul_ok.
  - now apply div_ok.
  - unfold f_floordiv. destruct (f_eq f y y); [apply round_ok; [exact K|now apply div_ok]|now apply qnan_ok].
  - unfold f_min. destruct (f_lt f x y); assumption.
  - unfold f_max. destruct (f_gt f x y); assumption.
Qed.
Lemma float_binary u f a1 a2 out n s1 s2 so m : known f -> 0 <= n -> bytes_ok m -> out mod fsize f = 0 ->
  operands_ok (fsize f) a1 s1 a2 s2 out so n ->
  exists m', run_fentry (ftable u f) (fwidth f / 8) a1 a2 out n s1 s2 so m = Some m' /\ elementwise (fsize f) (fscalar u f) a1 s1 a2 s2 out so n m m'.
Proof.
  intros K Hn Hm Hal Hop. assert (Hg : good_sz (fsize f)) by (unfold good_sz; destruct K as [-> | ->]; [change (fsize FLT) with 4|change (fsize DBL) with 8]; lia).
  pose proof (fscalar_closed u f K) as Hcl. change (fwidth f / 8) with (fsize f).
  destruct u; cbn [ftable run_fentry]; cbn [fscalar] in Hcl |- *;
    try (apply SimpleMathOpFast_elementwise; try assumption; reflexivity).
  - apply SimpleMathOpFastSymmetric_elementwise; try assumption; [reflexivity|].
    intros x y Hx Hy. apply add_comm; [exact K| |]; now apply fpat.
  - apply SimpleMathOpFastSymmetric_elementwise; try assumption; [reflexivity|]. intros x y _ _. apply mul_comm.
  - eexists. split; [reflexivity|]. now apply SimpleMathOpSlow_elementwise.
Qed.

(** what a call did: [ans] holds between the inputs and the output at every position, nothing else is written *)
Definition answered2 (ans : Z -> Z -> Z -> Prop) (sz a1 s1 a2 s2 out so n : Z) (m m' : bytes) : Prop :=
  (forall i, 0 <= i < n -> ans (ld sz m (a1 + i * s1)) (ld sz m (a2 + i * s2)) (ld sz m' (out + i * so))) /\
  (forall b, (forall i, 0 <= i < n -> ~ (out + i * so <= b < out + i * so + sz)) -> m' b = m b).
Lemma float_call2 u f (ans : Z -> Z -> Z -> Prop) numpy a1 a2 out n s1 s2 so m : known f ->
  (forall x y, 0 <= x < 2 ^ fwidth f -> 0 <= y < 2 ^ fwidth f -> ans x y (fscalar u f x y)) ->
  0 <= n -> bytes_ok m -> out mod fsize f = 0 -> operands_ok (fsize f) a1 s1 a2 s2 out so n ->
  (overlap_guard a1 a2 out = true -> answered2 ans (fsize f) a1 s1 a2 s2 out so n m (numpy a1 a2 out n s1 s2 so m)) ->
  exists m', FloatCall u f numpy a1 a2 out n s1 s2 so m = Some m' /\ answered2 ans (fsize f) a1 s1 a2 s2 out so n m m'.
Proof.
  intros K Ha Hn Hm Hal Hop Hnp. unfold FloatCall. destruct (overlap_guard a1 a2 out).
  - eexists. split; [reflexivity|]. now apply Hnp.
  - destruct (float_binary u f a1 a2 out n s1 s2 so m K Hn Hm Hal Hop) as (m' & E & D1 & D2). exists m'. split; [exact E|]. split; [|exact D2].
    intros i Hi. rewrite D1 by exact Hi. apply Ha; (apply fpat; [exact K|]); apply ld_pat; try exact Hm; destruct K as [-> | ->]; discriminate.
Qed.

(** ---------- C55 ---------- *)
Inductive arith := Add | Subtract | Multiply | Divide.
Definition arith_op (o : arith) : fop := match o with Add => FADD | Subtract => FSUB | Multiply => FMUL | Divide => FDIV end.
Definition arith_spec (o : arith) : fmt -> Z -> Z -> Z -> Prop :=
  match o with Add => is_sum | Subtract => is_difference | Multiply => is_product | Divide => is_quotient end.
(** C55.  np.add, np.subtract, np.multiply and np.true_divide of float32 or float64 arrays of every length, stride and
    content, arrays or scalars, in place or not: the call does not fault, and each output is the correctly rounded
    (nearest, ties to even) result on the original elements at that position, with the IEEE rules for NaN, infinities
    and signed zeros; nothing else is written.  [numpy]: NumPy's loop, used when the overlap guard refuses. *)
Theorem C55_float_arithmetic : forall o f numpy a1 a2 out n s1 s2 so m,
  known f -> 0 <= n -> bytes_ok m -> out mod fsize f = 0 -> operands_ok (fsize f) a1 s1 a2 s2 out so n ->
  (overlap_guard a1 a2 out = true -> answered2 (arith_spec o f) (fsize f) a1 s1 a2 s2 out so n m (numpy a1 a2 out n s1 s2 so m)) ->
  exists m', FloatCall (arith_op o) f numpy a1 a2 out n s1 s2 so m = Some m' /\
             answered2 (arith_spec o f) (fsize f) a1 s1 a2 s2 out so n m m'.
Proof.
  intros o f numpy a1 a2 out n s1 s2 so m K Hn Hm Hal Hop Hnp. apply float_call2; try assumption.
  intros x y Hx Hy. destruct o; cbn [arith_op arith_spec fscalar]; [apply add_ok|apply sub_ok|apply mul_ok|apply div_ok]; assumption.
Qed.
Print Assumptions C55_float_arithmetic.

(** the correctly rounded magnitude is unique *)
Theorem C55_rounding_unique : forall f N D g h, known f -> 0 < D -> nearest_even f N D g -> nearest_even f N D h -> g = h.
Proof. intros f N D g h K HD Hg Hh. eapply nearest_unique; eauto. Qed.

(** 0.1 + 0.2 = 0.30000000000000004; hypotheses: 1001 doubles plus a scalar, in place at an address that is 8 mod 32 *)
Example C55_nonvacuous : operands_ok (fsize DBL) 4104 8 64 0 4104 8 1001 /\ 4104 mod fsize DBL = 0 /\ overlap_guard 4104 64 4104 = false /\
  f_add DBL 4591870180066957722 4596373779694328218 = 4599075939470750516.
Proof.
  change (fsize DBL) with 8. split; [unfold operands_ok, outs_separate, no_clobber, disj; repeat split; intros i j; intros; lia|].
  split; [reflexivity|]. split; vm_compute; reflexivity.
Qed.

(** ---------- C54 ---------- *)
(** np.floor_divide is documented as the largest integer not above the exact quotient; r is that for finite x, y <> 0 *)
Definition is_floor_quotient (f : fmt) (x y r : Z) : Prop :=
  exists q, fval f r = q * one_val f /\
    (0 < fval f y -> q * fval f y <= fval f x < (q + 1) * fval f y) /\ (fval f y < 0 -> (q + 1) * fval f y < fval f x <= q * fval f y).
(** what pnumpy computes: the floor of the correctly rounded quotient *)
Definition is_floor_of_rounded (f : fmt) (x y r : Z) : Prop :=
  (fnan f x \/ fnan f y -> fnan f r) /\ (~ fnan f y -> exists d, is_quotient f x y d /\ rounded is_floor f d r).
Lemma floor_of_rounded f (K : known f) x y : 0 <= x < 2 ^ fwidth f -> 0 <= y < 2 ^ fwidth f -> is_floor_of_rounded f x y (fscalar FFLOORDIV f x y).
Proof.
  intros Hx Hy. cbn [fscalar]. unfold f_floordiv, f_eq, ordered. rewrite Z.eqb_refl, andb_true_r.
  destruct (div_ok f K x y Hx Hy) as [D1 D2]. destruct (round_ok f K TowardMinus _ D1) as [R1 R2]. destruct (qnan_ok f K) as [Q1 Q2].
  destruct (classes f K y) as (Ny & _). destruct (is_nan f y) eqn:E; cbn [negb andb].
  - split; [intros _; exact Q2|]. intros C. destruct C. now apply Ny.
  - split; [|intros _; exists (f_div f x y); split; assumption].
    intros [N|N]; [|apply Ny in N; discriminate N]. destruct R2 as [R2 _]. destruct D2 as [D2 _]. apply R2, D2. now left.
Qed.
Theorem C54_floor_of_rounded_partial : forall f numpy a1 a2 out n s1 s2 so m,
  known f -> 0 <= n -> bytes_ok m -> out mod fsize f = 0 -> operands_ok (fsize f) a1 s1 a2 s2 out so n ->
  (overlap_guard a1 a2 out = true -> answered2 (is_floor_of_rounded f) (fsize f) a1 s1 a2 s2 out so n m (numpy a1 a2 out n s1 s2 so m)) ->
  exists m', FloatCall FFLOORDIV f numpy a1 a2 out n s1 s2 so m = Some m' /\ answered2 (is_floor_of_rounded f) (fsize f) a1 s1 a2 s2 out so n m m'.
Proof.
  intros f numpy a1 a2 out n s1 s2 so m K Hn Hm Hal Hop Hnp. apply float_call2; try assumption.
  intros x y Hx Hy. now apply floor_of_rounded.
Qed.
Print Assumptions C54_floor_of_rounded_partial.

(** 1.0 // 0.1: the exact quotient is just below 10 (0.1 is stored as slightly more), pnumpy returns 10.0 *)
Definition one_tenth_mem : bytes := fun b =>
  if b =? 4103 then 63 else if b =? 4102 then 240 else
  if b =? 8199 then 63 else if b =? 8198 then 185 else if (8193 <=? b) && (b <=? 8197) then 153 else if b =? 8192 then 154 else 0.
Theorem C54_refuted : exists m', bytes_ok one_tenth_mem /\
  FloatCall FFLOORDIV DBL (fun _ _ _ _ _ _ _ m => m) 4096 8192 16384 1 8 8 8 one_tenth_mem = Some m' /\
  ld 8 one_tenth_mem 4096 = 4607182418800017408 (* 1.0 *) /\ ld 8 one_tenth_mem 8192 = 4591870180066957722 (* 0.1 *) /\
  fval DBL (ld 8 m' 16384) = 10 * one_val DBL /\ ~ is_floor_quotient DBL (ld 8 one_tenth_mem 4096) (ld 8 one_tenth_mem 8192) (ld 8 m' 16384).
Proof.
  eexists. split; [intros b; unfold one_tenth_mem; repeat (match goal with |- context[if ?c then _ else _] => destruct c end); lia|].
  split; [reflexivity|]. split; [vm_compute; reflexivity|]. split; [vm_compute; reflexivity|].
  match goal with |- context[ld 8 ?mm 16384] => assert (E : ld 8 mm 16384 = 4621819117588971520) by (vm_compute; reflexivity) end.
  assert (O : one_val DBL = 2 ^ 1074) by (vm_compute; reflexivity).
  assert (V : fval DBL 4621819117588971520 = 10 * 2 ^ 1074) by (vm_compute; reflexivity).
  rewrite E, O, V. split; [reflexivity|]. intros (q & Hq & Hpos & _). rewrite O, V in Hq.
  assert (q = 10) as -> by (assert (0 < 2 ^ 1074) by (apply Z.pow_pos_nonneg; lia); nia).
  assert (Y : 0 < fval DBL (ld 8 one_tenth_mem 8192)) by (vm_compute; reflexivity).
  destruct (Hpos Y) as [C _]. vm_compute in C. now apply C.
Qed.

(** ---------- C44 ---------- *)
(** NumPy: a NaN if either is; otherwise the smaller (larger) value *)
Definition is_extreme (mx : bool) (f : fmt) (x y r : Z) : Prop :=
  (fnan f x \/ fnan f y -> fnan f r) /\
  (~ fnan f x -> ~ fnan f y -> (r = x \/ r = y) /\ fval f r = (if mx then Z.max else Z.min) (fval f x) (fval f y)).
(** exactly what pnumpy answers: right unless the first operand is a NaN, and then the second operand *)
Definition is_half_extreme (mx : bool) (f : fmt) (x y r : Z) : Prop :=
  (~ fnan f x -> is_extreme mx f x y r) /\ (fnan f x -> r = y).
Lemma half_extreme mx f (K : known f) x y : 0 <= x < 2 ^ fwidth f -> 0 <= y < 2 ^ fwidth f ->
  is_half_extreme mx f x y (fscalar (if mx then FMAX else FMIN) f x y).
Proof.
  intros Hx Hy.
  pose proof (fops_holds f (kb f K) (kw f K) CMP_LT x y) as L. pose proof (fops_holds f (kb f K) (kw f K) CMP_GT x y) as G. cbn [fops fholds rel] in L, G.
  destruct mx; cbn [fscalar]; unfold f_min, f_max.
  - destruct (f_gt f x y).
    + destruct (proj1 G eq_refl) as (A & B & C). split; [intros _; split; [tauto|]; intros _ _; split; [now left|lia]|tauto].
    + split; [|reflexivity]. intros A. split; [tauto|]. intros _ B. split; [now right|].
      destruct (Z.lt_ge_cases (fval f y) (fval f x)) as [C|C]; [|lia]. assert (false = true) by (apply G; repeat split; [exact A|exact B|lia]). discriminate.
  - destruct (f_lt f x y).
    + destruct (proj1 L eq_refl) as (A & B & C). split; [intros _; split; [tauto|]; intros _ _; split; [now left|lia]|tauto].
    + split; [|reflexivity]. intros A. split; [tauto|]. intros _ B. split; [now right|].
      destruct (Z.lt_ge_cases (fval f x) (fval f y)) as [C|C]; [|lia]. assert (false = true) by (apply L; repeat split; [exact A|exact B|lia]). discriminate.
Qed.
Theorem C44_exact_partial : forall mx f numpy a1 a2 out n s1 s2 so m,
  known f -> 0 <= n -> bytes_ok m -> out mod fsize f = 0 -> operands_ok (fsize f) a1 s1 a2 s2 out so n ->
  (overlap_guard a1 a2 out = true -> answered2 (is_half_extreme mx f) (fsize f) a1 s1 a2 s2 out so n m (numpy a1 a2 out n s1 s2 so m)) ->
  exists m', FloatCall (if mx then FMAX else FMIN) f numpy a1 a2 out n s1 s2 so m = Some m' /\
             answered2 (is_half_extreme mx f) (fsize f) a1 s1 a2 s2 out so n m m'.
Proof.
  intros mx f numpy a1 a2 out n s1 s2 so m K Hn Hm Hal Hop Hnp. apply float_call2; try assumption.
  intros x y Hx Hy. now apply half_extreme.
Qed.
Print Assumptions C44_exact_partial.

(** C44 as stated is false: the minimum (maximum) of NaN and 1.0, in that order, is 1.0 *)
Definition nan_one_mem : bytes := fun b => if b =? 4099 then 127 else if b =? 4098 then 192 else if b =? 8195 then 63 else if b =? 8194 then 128 else 0.
Theorem C44_refuted : forall mx, exists m', bytes_ok nan_one_mem /\ operands_ok 4 4096 4 8192 4 16384 4 1 /\
  FloatCall (if mx : bool then FMAX else FMIN) FLT (fun _ _ _ _ _ _ _ m => m) 4096 8192 16384 1 4 4 4 nan_one_mem = Some m' /\
  fnan FLT (ld 4 nan_one_mem 4096) /\ ~ fnan FLT (ld 4 m' 16384) /\ ld 4 m' 16384 = f_one FLT.
Proof.
  intros mx. destruct mx; (eexists; split; [intros b; unfold nan_one_mem; repeat (match goal with |- context[if ?c then _ else _] => destruct c end); lia|];
    split; [unfold operands_ok, outs_separate, no_clobber, disj; repeat split; intros i j; intros; lia|];
    split; [reflexivity|]; split; [split; [reflexivity|discriminate]|]; split; [intros [C _]; discriminate C|reflexivity]).
Qed.
