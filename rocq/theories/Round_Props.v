(** Round_Props.v - C52 (floor, ceil, trunc, rint). *)
From Verif Require Import Base Kernel_Model Kernel_Proofs Kernel_Props Float_Model Compare_Model Compare_Proofs Compare_Props Unary_Model Unary_Proofs Unary_Props UnaryVal_Props Round_Model.

(** ---------- specification ---------- *)
(** the value of 1.0 in the units of [fval] *)
Definition one_val (f : fmt) : Z := fval f (f_one f).
(** the integer q that v/o rounds to *)
Definition is_floor (v o q : Z) : Prop := q * o <= v < (q + 1) * o.
Definition is_ceil (v o q : Z) : Prop := (q - 1) * o < v <= q * o.
Definition is_trunc (v o q : Z) : Prop := Z.abs q * o <= Z.abs v < (Z.abs q + 1) * o /\ 0 <= q * v.
Definition is_nearest (v o q : Z) : Prop := 2 * Z.abs (v - q * o) <= o.
(** np.rint: nearest, halfway cases to even *)
Definition is_rint (v o q : Z) : Prop := is_nearest v o q /\ (2 * Z.abs (v - q * o) = o -> Z.even q = true).
(** C's round(): nearest, halfway cases away from zero *)
Definition is_away (v o q : Z) : Prop := is_nearest v o q /\ (2 * Z.abs (v - q * o) = o -> Z.abs v < Z.abs q * o).
Definition rounded (P : Z -> Z -> Z -> Prop) (f : fmt) (x r : Z) : Prop :=
  (fnan f x -> fnan f r) /\
  (~ fnan f x -> ~ fnan f r /\ (2 ^ (fwidth f - 1) <= r <-> 2 ^ (fwidth f - 1) <= x) /\
     exists q, fval f r = q * one_val f /\ P (fval f x) (one_val f) q).

Section Rounding.
  Variable f : fmt.
  Hypothesis K : known f.
  Let p := fbits f.
  Let P := 2 ^ p.
  Let b := bias f.
  Let o := one_val f.
  Lemma consts : 1 < p /\ 0 < P /\ 1 < b /\ o = P * 2 ^ (b - 1) /\ f_one f = b * P /\ b + p < emax f /\ 2 ^ (fwidth f - 1) = (emax f + 1) * P.
  Proof. unfold p, P, b, o. destruct K as [-> | ->]; vm_compute; repeat split; try discriminate. Qed.

  (* a non-negative pattern from its fields *)
  Lemma fields_of e fr : 0 <= e <= emax f -> 0 <= fr < P -> forall y, y = e * P + fr -> fmag f y = y /\ fneg f y = false /\ fexp f y = e /\ ffrac f y = fr.
  Proof.
    intros He Hf y ->. destruct consts as (_ & HP & _ & _ & _ & _ & HW).
    assert (R : 0 <= e * P + fr < 2 ^ (fwidth f - 1)) by nia.
    assert (M : fmag f (e * P + fr) = e * P + fr) by (unfold fmag; apply Z.mod_small; exact R).
    split; [exact M|]. split; [unfold fneg; apply Z.leb_gt; lia|]. unfold fexp, ffrac. rewrite M. fold p. fold P.
    split; [rewrite Z.div_add_l by lia; rewrite Z.div_small by lia; lia|]. rewrite Z.add_comm, Z.mod_add by lia. apply Z.mod_small. lia.
  Qed.
  Definition signed_mag (neg : bool) (v : Z) := if neg then - v else v.
  Lemma with_sign x g : 0 <= x < 2 ^ fwidth f -> 0 <= g < 2 ^ (fwidth f - 1) ->
    let r := sign_bit f x + g in
    0 <= r < 2 ^ fwidth f /\ fneg f r = fneg f x /\ fmag f r = fmag f g /\ fval f r = signed_mag (fneg f x) (fabsval f g).
  Proof.
    intros Hx Hg r. destruct (top f K) as [T1 T2]. unfold sign_bit in r.
    assert (R : 0 <= r < 2 ^ fwidth f) by (unfold r; destruct (fneg f x); lia).
    assert (G : fneg f r = fneg f x /\ fmag f r = fmag f g).
    { unfold fmag at 2. rewrite (Z.mod_small g) by lia.
      destruct (mag_cases f K r R) as [(A & B & C)|(A & B & C)]; rewrite A, B; unfold r in *; destruct (fneg f x); split; try reflexivity; lia. }
    destruct G as [G1 G2]. split; [exact R|]. split; [exact G1|]. split; [exact G2|].
    unfold fval, signed_mag. rewrite G1. destruct (same_mag f r g G2) as (-> & _). reflexivity.
  Qed.
  Lemma sign_split x : 0 <= x < 2 ^ fwidth f -> x = sign_bit f x + fmag f x.
  Proof. intros Hx. unfold sign_bit. destruct (mag_cases f K x Hx) as [(-> & -> & _)|(-> & -> & _)]; lia. Qed.

  (* the unsigned core: from the magnitude of x to an integer q0 and a bump *)
  Lemma small x : fexp f x < b -> fabsval f x < o.
  Proof.
    intros E. destruct consts as (Hp & HP & Hb & Ho & _). destruct (fields f K x) as (HE & HF & _). fold p in HF. fold P in HF. unfold fabsval.
    rewrite Ho. destruct (Z.eqb_spec (fexp f x) 0); fold p; fold P.
    - assert (1 <= 2 ^ (b - 1)) by (apply (Z.pow_le_mono_r 2 0); lia). nia.
    - assert (2 ^ (fexp f x - 1) * 2 <= 2 ^ (b - 1)).
      { rewrite <- (Z.pow_1_r 2) at 2. rewrite <- Z.pow_add_r by lia. apply Z.pow_le_mono_r; lia. }
      assert (0 < 2 ^ (fexp f x - 1)) by (apply Z.pow_pos_nonneg; lia). nia.
  Qed.
  Lemma half x : fexp f x < b -> (o <= 2 * fabsval f x <-> fexp f x = b - 1).
  Proof.
    intros E. destruct consts as (Hp & HP & Hb & Ho & _). destruct (fields f K x) as (HE & HF & _). fold p in HF. fold P in HF. unfold fabsval.
    assert (E2 : 2 ^ (b - 1) = 2 * 2 ^ (b - 2)) by (rewrite <- Z.pow_succ_r by lia; f_equal; lia).
    rewrite Ho, E2. destruct (Z.eqb_spec (fexp f x) 0); fold p; fold P.
    - assert (1 <= 2 ^ (b - 2)) by (apply (Z.pow_le_mono_r 2 0); lia). split; [nia|lia].
    - split.
      + intros L. destruct (Z.eq_dec (fexp f x) (b - 1)) as [|N]; [assumption|exfalso].
        assert (2 ^ (fexp f x - 1) * 2 <= 2 ^ (b - 2)).
        { rewrite <- (Z.pow_1_r 2) at 2. rewrite <- Z.pow_add_r by lia. apply Z.pow_le_mono_r; lia. }
        assert (0 < 2 ^ (fexp f x - 1)) by (apply Z.pow_pos_nonneg; lia). nia.
      + intros ->. replace (b - 1 - 1) with (b - 2) by lia. assert (0 < 2 ^ (b - 2)) by (apply Z.pow_pos_nonneg; lia). nia.
  Qed.
  (* 1 <= |x| < 2^p *)
  Lemma core x e : e = fexp f x - b -> 0 <= e < p -> let u := 2 ^ (p - e) in
    exists q rem, fabsval f x = q * o + rem /\ 0 <= rem < o /\ (rem = 0 <-> fmag f x mod u = 0) /\ (2 * rem < o <-> 2 * (fmag f x mod u) < u) /\
      0 < u /\ 0 <= fmag f x - fmag f x mod u /\ fmag f x - fmag f x mod u + u < 2 ^ (fwidth f - 1) /\
      fabsval f (fmag f x - fmag f x mod u) = q * o /\ fabsval f (fmag f x - fmag f x mod u + u) = (q + 1) * o.
  Proof.
    intros He Re u. destruct consts as (Hp & HP & Hb & Ho & _ & Hem & HW). destruct (fields f K x) as (HE & HF & HM). fold p in HM, HF. fold P in HM, HF.
    assert (Hu : 0 < u) by (apply Z.pow_pos_nonneg; lia).
    assert (EP : P = u * 2 ^ e) by (unfold P, u; rewrite <- Z.pow_add_r by lia; f_equal; lia).
    assert (Pe : 0 < 2 ^ e) by (apply Z.pow_pos_nonneg; lia).
    set (fr := ffrac f x) in *. set (E := fexp f x) in *.
    assert (Mu : fmag f x mod u = fr mod u).
    { rewrite HM, EP. replace (E * (u * 2 ^ e) + fr) with (fr + E * 2 ^ e * u) by ring. apply Z.mod_add. lia. }
    rewrite Mu. pose proof (Z.mod_pos_bound fr u Hu) as Rm. pose proof (Z.div_mod fr u ltac:(lia)) as D. set (r := fr mod u) in *. set (d := fr / u) in *.
    assert (Hd : 0 <= d < 2 ^ e).
    { split; [apply Z.div_pos; lia|]. apply Z.div_lt_upper_bound; [lia|]. rewrite <- EP. lia. }
    set (w := 2 ^ (E - 1)).
    assert (Hw : 0 < w) by (apply Z.pow_pos_nonneg; lia).
    assert (Hou : o = u * w).
    { rewrite Ho. unfold w, P, u. rewrite <- !Z.pow_add_r by lia. f_equal. lia. }
    assert (AV : fabsval f x = (P + fr) * w).
    { unfold fabsval. fold E. fold fr. destruct (Z.eqb_spec E 0); [lia|]. reflexivity. }
    exists (2 ^ e + d), (r * w).
    split; [rewrite AV, Hou, EP, D; ring|].
    split; [rewrite Hou; nia|]. split; [split; intros; nia|]. split; [rewrite Hou; split; intros; nia|]. split; [exact Hu|].
    assert (Rng : 0 <= fmag f x - r) by (rewrite HM; nia).
    split; [exact Rng|].
    assert (E1 : E + 1 <= emax f) by lia.
    assert (TU : fmag f x - r + u = E * P + u * (d + 1)) by (rewrite HM, D; ring).
    split; [rewrite TU, HW, EP; nia|].
    destruct (fields_of E (u * d) ltac:(lia) ltac:(nia) (fmag f x - r) ltac:(rewrite HM, D; ring)) as (_ & _ & A1 & A2).
    split.
    { unfold fabsval. rewrite A1, A2. destruct (Z.eqb_spec E 0); [lia|]. fold p. fold P. fold w. rewrite Hou, EP. ring. }
    destruct (Z.eq_dec (d + 1) (2 ^ e)) as [C|C].
    - destruct (fields_of (E + 1) 0 ltac:(lia) ltac:(lia) (fmag f x - r + u) ltac:(rewrite TU, C, EP; ring)) as (_ & _ & B1 & B2).
      unfold fabsval. rewrite B1, B2. destruct (Z.eqb_spec (E + 1) 0); [lia|]. fold p. fold P.
      replace (2 ^ (E + 1 - 1)) with (2 * w) by (unfold w; rewrite <- Z.pow_succ_r by lia; f_equal; lia). rewrite Hou, EP, <- C. ring.
    - destruct (fields_of E (u * (d + 1)) ltac:(lia) ltac:(nia) (fmag f x - r + u) TU) as (_ & _ & B1 & B2).
      unfold fabsval. rewrite B1, B2. destruct (Z.eqb_spec E 0); [lia|]. fold p. fold P. fold w. rewrite Hou, EP. ring.
  Qed.

  Definition P_of (k : rmode) : Z -> Z -> Z -> Prop :=
    match k with TowardMinus => is_floor | TowardPlus => is_ceil | TowardZero => is_trunc | HalfAway => is_away end.
  Lemma finish k neg A q rem one : 0 < one -> A = q * one + rem -> 0 <= rem < one -> 0 <= A ->
    P_of k (signed_mag neg A) one (signed_mag neg (q + (if bump k neg rem one then 1 else 0))).
  Proof.
    intros Ho HA Hr HA0. assert (Hq : 0 <= q) by nia.
    destruct k; cbn [P_of bump].
    - unfold is_floor, signed_mag. destruct neg; cbn [andb negb]; [|nia]. destruct (Z.eqb_spec rem 0); cbn [negb]; nia.
    - unfold is_ceil, signed_mag. destruct neg; cbn [andb negb]; [nia|]. destruct (Z.eqb_spec rem 0); cbn [negb]; nia.
    - unfold is_trunc, signed_mag. rewrite Z.add_0_r. destruct neg; rewrite ?Z.abs_opp, !Z.abs_eq by lia; split; nia.
    - unfold is_away, is_nearest, signed_mag. destruct (Z.leb_spec one (2 * rem)) as [L|L].
      + assert (E : Z.abs (A - (q + 1) * one) = one - rem) by (rewrite Z.abs_neq by nia; nia).
        assert (E' : Z.abs (- A - - (q + 1) * one) = one - rem) by (rewrite <- E, <- Z.abs_opp; f_equal; ring).
        destruct neg; rewrite ?E, ?E', ?Z.abs_opp, ?(Z.abs_eq A), ?(Z.abs_eq (q + 1)) by lia; split; nia.
      + assert (E : Z.abs (A - (q + 0) * one) = rem) by (rewrite Z.abs_eq by nia; nia).
        assert (E' : Z.abs (- A - - (q + 0) * one) = rem) by (rewrite <- E, <- Z.abs_opp; f_equal; ring).
        destruct neg; rewrite ?E, ?E'; split; nia.
  Qed.
  Lemma absval_zero x : fabsval f x = 0 <-> fmag f x = 0.
  Proof.
    destruct (fields f K x) as (HE & HF & HM). pose proof (P0 f (kb f K)) as HP. unfold fabsval. destruct (Z.eqb_spec (fexp f x) 0) as [E|E].
    - rewrite HM, E. lia.
    - assert (0 < 2 ^ (fexp f x - 1)) by (apply Z.pow_pos_nonneg; lia). split; [nia|]. intros M. nia.
  Qed.
  Lemma one_pos : 0 < o.
  Proof. destruct consts as (_ & HP & Hb & -> & _). assert (0 < 2 ^ (b - 1)) by (apply Z.pow_pos_nonneg; lia). nia. Qed.

  Lemma round_ok k x : 0 <= x < 2 ^ fwidth f -> 0 <= f_round k f x < 2 ^ fwidth f /\ rounded (P_of k) f x (f_round k f x).
  Proof.
    intros Hx. pose proof (class_nan f K x) as CN. unfold f_round. destruct (is_nan f x) eqn:EN.
    { destruct (quiet_nan f K x Hx EN) as (Q1 & _ & Q3). split; [exact Q1|]. split; [intros _; now apply class_nan|]. intros N. destruct N. now apply CN. }
    assert (NN : ~ fnan f x) by (intros C; apply CN in C; discriminate C).
    destruct consts as (Hp & HP & Hb & Ho & H1 & Hem & HW). destruct (fields f K x) as (HE & HF & HM). fold p in HM, HF. fold P in HM, HF. pose proof one_pos as Hop.
    assert (SGN : forall y, (2 ^ (fwidth f - 1) <= y <-> fneg f y = true)) by (intros y; unfold fneg; now rewrite Z.leb_le).
    fold p. fold b. destruct (Z.leb_spec p (fexp f x - b)) as [C1|C1].
    { split; [exact Hx|]. split; [tauto|]. intros _. split; [exact NN|]. split; [reflexivity|].
      assert (D : exists q, fabsval f x = q * o).
      { exists ((P + ffrac f x) * 2 ^ (fexp f x - b - p)). unfold fabsval. destruct (Z.eqb_spec (fexp f x) 0); [lia|]. fold p. fold P. rewrite Ho, <- Z.mul_assoc. f_equal.
        unfold P. rewrite <- !Z.pow_add_r by lia. f_equal. lia. }
      destruct D as [q Hq]. pose proof (absval_pos f K x) as AP.
      exists (signed_mag (fneg f x) q). fold o. split; [unfold fval, signed_mag; rewrite Hq; destruct (fneg f x); ring|].
      pose proof (finish k (fneg f x) (fabsval f x) q 0 o Hop ltac:(lia) ltac:(lia) AP) as F.
      replace (if bump k (fneg f x) 0 o then 1 else 0) with 0 in F; [rewrite Z.add_0_r in F; exact F|].
      destruct k; cbn [bump]; rewrite ?andb_false_r; try reflexivity. destruct (Z.leb_spec o (2 * 0)); [lia|reflexivity]. }
    (* both remaining cases: r = sign + g, |g| = (q + up) * o *)
    assert (FIN : forall g q rem, 0 <= g < 2 ^ (fwidth f - 1) -> fabsval f x = q * o + rem -> 0 <= rem < o ->
        fabsval f g = (q + (if bump k (fneg f x) rem o then 1 else 0)) * o -> fexp f g < emax f ->
        0 <= sign_bit f x + g < 2 ^ fwidth f /\ rounded (P_of k) f x (sign_bit f x + g)).
    { intros g q rem Hg HA Hr HG HEg. destruct (with_sign x g Hx Hg) as (R & S & M & V). split; [exact R|]. split; [tauto|]. intros _. split; [|split].
      - destruct (same_mag f _ _ M) as (_ & SN & _). rewrite SN. intros [C _]. lia.
      - rewrite !SGN, S. reflexivity.
      - exists (signed_mag (fneg f x) (q + (if bump k (fneg f x) rem o then 1 else 0))). fold o. split.
        + rewrite V, HG. unfold signed_mag. destruct (fneg f x); ring.
        + change (fval f x) with (signed_mag (fneg f x) (fabsval f x)). apply finish with (rem := rem); try assumption. apply (absval_pos f K). }
    destruct (Z.ltb_spec (fexp f x - b) 0) as [C2|C2].
    - pose proof (small x ltac:(lia)) as SM. pose proof (half x ltac:(lia)) as HH. pose proof (absval_pos f K x) as AP. pose proof (absval_zero x) as AZ.
      destruct (fields_of b 0 ltac:(lia) ltac:(lia) (f_one f) ltac:(lia)) as (OM & ON & OE & OF).
      assert (ONE : fabsval f (f_one f) = o) by (unfold o, one_val, fval; now rewrite ON).
      assert (ZER : fabsval f 0 = 0 /\ fexp f 0 = 0) by (destruct K as [-> | ->]; split; reflexivity).
      set (up := match k with HalfAway => _ | _ => _ end).
      assert (UP : up = bump k (fneg f x) (fabsval f x) o).
      { unfold up. destruct k; cbn [bump]; try reflexivity.
        - f_equal. f_equal. destruct (Z.eqb_spec (fmag f x) 0), (Z.eqb_spec (fabsval f x) 0); try reflexivity; tauto.
        - f_equal. f_equal. destruct (Z.eqb_spec (fmag f x) 0), (Z.eqb_spec (fabsval f x) 0); try reflexivity; tauto.
        - destruct (Z.eqb_spec (fexp f x - b) (-1)), (Z.leb_spec o (2 * fabsval f x)); try reflexivity; exfalso; [|assert (fexp f x = b - 1) by (apply HH; lia); lia].
          assert (o <= 2 * fabsval f x) by (apply HH; lia). lia. }
      destruct ZER as [ZER1 ZER2]. assert (0 < 2 ^ (fwidth f - 1)) by (rewrite HW; nia).
      assert (RO : 0 <= f_one f < 2 ^ (fwidth f - 1)) by (rewrite HW, H1; nia).
      destruct up; (apply (FIN _ 0 (fabsval f x)); [lia|lia|lia|rewrite <- UP; lia|lia]).
    - destruct (core x (fexp f x - b) eq_refl ltac:(lia)) as (q & rem & D1 & D2 & D3 & D4 & D5 & D6 & D7 & D8 & D9).
      set (u := 2 ^ (p - (fexp f x - b))) in *. set (mr := fmag f x mod u) in *.
      assert (BB : bump k (fneg f x) mr u = bump k (fneg f x) rem o).
      { destruct k; cbn [bump]; try reflexivity.
        - f_equal. f_equal. destruct (Z.eqb_spec mr 0), (Z.eqb_spec rem 0); try reflexivity; tauto.
        - f_equal. f_equal. destruct (Z.eqb_spec mr 0), (Z.eqb_spec rem 0); try reflexivity; tauto.
        - destruct (Z.leb_spec u (2 * mr)), (Z.leb_spec o (2 * rem)); try reflexivity; exfalso; [assert (2 * mr < u) by (apply D4; lia)|assert (2 * rem < o) by (apply D4; lia)]; lia. }
      rewrite BB, <- Z.add_assoc.
      assert (EXPg : forall g, 0 <= g <= fmag f x - mr + u -> fexp f g < emax f).
      { intros g Hg. unfold fexp, fmag at 1. rewrite Z.mod_small by lia. fold p. fold P. apply Z.div_lt_upper_bound; [exact HP|].
        assert (u <= P) by (unfold u, P; apply Z.pow_le_mono_r; lia). pose proof (Z.mod_pos_bound (fmag f x) u D5) as MB. fold mr in MB. nia. }
      destruct (bump k (fneg f x) rem o) eqn:EB; apply (FIN _ q rem); try assumption; try rewrite EB; try lia; try (apply EXPg; lia).
      rewrite !Z.add_0_r. exact D8.
  Qed.
End Rounding.

(** ---------- C52 ---------- *)
(** C52.  np.floor, np.ceil and np.trunc of float32 and float64 arrays of every length, stride and content: each output is
    the floor, ceiling or truncation of the element at its position, with its sign bit, NaN exactly for NaN; nothing else
    is written.  In place is allowed. *)
Definition P_op (r : rop) : Z -> Z -> Z -> Prop := match r with FLOOR => is_floor | CEIL => is_ceil | TRUNC => is_trunc | ROUND => is_away end.
Lemma round_call r f numpy a out n s so m : known f -> (r = ROUND -> f = DBL) -> 0 <= n -> so <> 0 -> bytes_ok m ->
  outs_separate (fsize f) out so n -> no_clobber (fsize f) a s out so n ->
  elementwise1 (fsize f) (f_round (rmode_of r) f) a s out so n m (RoundCall r (fty f) numpy a out n s so m).
Proof.
  intros K HR Hn Hso Hm Ho Hc.
  assert (CL : forall x, pat (fsize f) x -> pat (fsize f) (f_round (rmode_of r) f x)).
  { intros x. rewrite !fpat by exact K. intros Hx. apply round_ok; assumption. }
  assert (E : RoundCall r (fty f) numpy a out n s so m = slow (fsize f) (fsize f) (f_round (rmode_of r) f) a out n s so m \/
    RoundCall r (fty f) numpy a out n s so m = UnaryOpFast (fsize f) (f_round (rmode_of r) f) (f_round (rmode_of r) f) a out n s so m).
  { unfold RoundCall. destruct (Z.eqb_spec so 0) as [|_]; [contradiction|]. destruct r, K as [-> | ->]; try (right; reflexivity); [discriminate (HR eq_refl)|left; reflexivity]. }
  destruct E as [-> | ->].
  - apply slow_elementwise; try assumption. destruct K as [-> | ->]; discriminate.
  - apply C14_unary; try assumption; [|reflexivity]. unfold good_sz. destruct K as [-> | ->]; [change (fsize FLT) with 4|change (fsize DBL) with 8]; lia.
Qed.
Definition rounded_all (P : Z -> Z -> Z -> Prop) (f : fmt) (a s out so n : Z) (m m' : bytes) : Prop :=
  (forall i, 0 <= i < n -> rounded P f (ld (fsize f) m (a + i * s)) (ld (fsize f) m' (out + i * so))) /\
  (forall b, (forall i, 0 <= i < n -> ~ (out + i * so <= b < out + i * so + fsize f)) -> m' b = m b).
Theorem C52_rounding : forall r f numpy a out n s so m,
  known f -> (r = ROUND -> f = DBL) -> 0 <= n -> bytes_ok m ->
  outs_separate (fsize f) out so n -> no_clobber (fsize f) a s out so n ->
  (so = 0 -> rounded_all (P_op r) f a s out so n m (numpy a out n s so m)) ->
  rounded_all (P_op r) f a s out so n m (RoundCall r (fty f) numpy a out n s so m).
Proof.
  intros r f numpy a out n s so m K HR Hn Hm Ho Hc Hnp. destruct (Z.eq_dec so 0) as [E|Hso].
  { unfold RoundCall. destruct (Z.eqb_spec so 0) as [_|]; [|contradiction]. destruct (GetRoundOp r (fty f)); apply Hnp, E. }
  destruct (round_call r f numpy a out n s so m K HR Hn Hso Hm Ho Hc) as [D1 D2]. split; [|exact D2].
  intros i Hi. rewrite D1 by exact Hi.
  assert (EQ : P_op r = P_of (rmode_of r)) by (destruct r; reflexivity). rewrite EQ. apply round_ok; [exact K|].
  apply fpat; [exact K|]. apply ld_pat; [destruct K as [-> | ->]; discriminate|exact Hm].
Qed.
Print Assumptions C52_rounding.

(** np.rint is documented to round halfway cases to even; on float64 pnumpy rounds them away from zero.  It is right
    exactly when |x| is not halfway above an even integer. *)
Definition half_above_even (v o : Z) : Prop := exists k, 2 * Z.abs v = (2 * k + 1) * o /\ Z.even k = true.
Lemma away_vs_rint v o q : 0 < o -> is_away v o q -> (is_rint v o q <-> ~ half_above_even v o).
Proof.
  intros Ho [N T]. unfold is_nearest in N. split.
  - intros [_ T2] (k & Hk & Ek).
    assert (TIE : 2 * Z.abs (v - q * o) = o /\ (v = 0 \/ Z.abs q = k + 1)).
    { destruct (Z.lt_trichotomy (2 * Z.abs (v - q * o)) o) as [L|[L|L]]; [exfalso| |lia].
      - assert (H : exists j, 2 * v = (2 * j + 1) * o) by (destruct (Z.abs_spec v) as [[_ A]|[_ A]]; [exists k|exists (- k - 1)]; lia).
        destruct H as [j Hj]. assert (B : Z.abs ((2 * j + 1 - 2 * q) * o) < o) by (replace ((2 * j + 1 - 2 * q) * o) with (2 * (v - q * o)) by lia; lia).
        rewrite Z.abs_mul, (Z.abs_eq o) in B by lia. assert (Z.abs (2 * j + 1 - 2 * q) < 1) by nia. lia.
      - split; [exact L|]. specialize (T L). right. destruct (Z.abs_spec v) as [[Sv A]|[Sv A]], (Z.abs_spec q) as [[Sq B]|[Sq B]], (Z.abs_spec (v - q * o)) as [[Sd C]|[Sd C]]; nia. }
    destruct TIE as [T3 [V0|Q]]; [rewrite V0, Z.abs_0 in Hk; destruct (proj1 (Z.mul_eq_0 (2 * k + 1) o) ltac:(lia)); lia|].
    specialize (T2 T3). assert (EA : Z.even (Z.abs q) = Z.even q) by (destruct (Z.abs_eq_or_opp q) as [-> | ->]; rewrite ?Z.even_opp; reflexivity).
    rewrite <- EA, Q in T2. rewrite Z.add_1_r, Z.even_succ in T2. rewrite <- Z.negb_even, Ek in T2. discriminate T2.
  - intros H. split; [exact N|]. intros T3. specialize (T T3). destruct (Z.even q) eqn:E; [reflexivity|exfalso]. apply H.
    exists (Z.abs q - 1). split.
    + assert (AQ : Z.abs q * o = Z.abs (q * o)) by (rewrite Z.abs_mul, (Z.abs_eq o) by lia; reflexivity).
      assert (Q0 : q = 0 \/ 1 <= Z.abs q) by lia. assert (QO : q = 0 \/ o <= Z.abs q * o) by nia.
      replace ((2 * (Z.abs q - 1) + 1) * o) with (2 * (Z.abs q * o) - o) by ring. rewrite AQ in *. destruct QO as [->|QO]; [lia|]. lia.
    + rewrite Z.even_sub. destruct (Z.abs_eq_or_opp q) as [-> | ->]; rewrite ?Z.even_opp, E; reflexivity.
Qed.

Theorem C52_rint_exact : forall numpy a out n s so m i,
  0 <= n -> so <> 0 -> bytes_ok m -> outs_separate 8 out so n -> no_clobber 8 a s out so n -> 0 <= i < n ->
  let x := ld 8 m (a + i * s) in
  ~ fnan DBL x ->
  (rounded is_rint DBL x (ld 8 (RoundCall ROUND DOUBLE numpy a out n s so m) (out + i * so)) <->
   ~ half_above_even (fval DBL x) (2 ^ 1074)).
Proof.
  intros numpy a out n s so m i Hn Hso Hm Ho Hc Hi x Hx.
  assert (K : known DBL) by now right.
  pose proof (C52_rounding ROUND DBL numpy a out n s so m K (fun _ => eq_refl) Hn Hm Ho Hc) as [D1 _]; [intros E; contradiction|].
  specialize (D1 i Hi). change (fsize DBL) with 8 in D1. fold x in D1. set (r := ld 8 _ (out + i * so)) in *.
  assert (O : one_val DBL = 2 ^ 1074) by (vm_compute; reflexivity).
  assert (OP : 0 < 2 ^ 1074) by (apply Z.pow_pos_nonneg; lia).
  destruct D1 as [_ D]. destruct (D Hx) as (R1 & R2 & q & R3 & R4). rewrite O in *. cbn [P_op] in R4.
  pose proof (away_vs_rint _ _ _ OP R4) as A. split.
  - intros [_ G]. destruct (G Hx) as (_ & _ & q' & E & G2). rewrite O in *. assert (q' = q) as -> by nia. now apply A.
  - intros H. split; [tauto|]. intros _. split; [exact R1|]. split; [exact R2|]. exists q. rewrite O. split; [exact R3|now apply A].
Qed.
Print Assumptions C52_rint_exact.

(** np.rint(2.5) is 3.0, not 2.0 *)
Theorem C52_rint_refuted : exists m, bytes_ok m /\
  let r := ld 8 (RoundCall ROUND DOUBLE (fun _ _ _ _ _ m => m) 4096 8192 1 8 8 m) 8192 in
  fval DBL (ld 8 m 4096) * 2 = 5 * 2 ^ 1074 /\ fval DBL r = 3 * 2 ^ 1074 /\ ~ rounded is_rint DBL (ld 8 m 4096) r.
Proof.
  exists (fun b => if b =? 4103 then 64 else if b =? 4102 then 4 else 0).
  split; [intros b; destruct (b =? 4103), (b =? 4102); lia|]. intros r.
  assert (V : fval DBL (ld 8 (fun b => if b =? 4103 then 64 else if b =? 4102 then 4 else 0) 4096) * 2 = 5 * 2 ^ 1074) by (vm_compute; reflexivity).
  assert (R : fval DBL r = 3 * 2 ^ 1074) by (vm_compute; reflexivity).
  split; [exact V|]. split; [exact R|]. set (x := ld 8 _ 4096) in *. clearbody r. intros [_ G].
  assert (O : one_val DBL = 2 ^ 1074) by (vm_compute; reflexivity). assert (OP : 0 < 2 ^ 1074) by (apply Z.pow_pos_nonneg; lia).
  destruct G as (_ & _ & q & E & _ & T).
  - unfold x. intros [C _]. vm_compute in C. discriminate C.
  - rewrite O in *. assert (q = 3) as -> by nia. specialize (T ltac:(lia)). discriminate T.
Qed.

(** hypotheses: np.floor of 9 float32 in place *)
Example C52_nonvacuous : outs_separate (fsize FLT) 4096 4 9 /\ no_clobber (fsize FLT) 4096 4 4096 4 9 /\
  (* floor(-2.5) = -3.0, ceil(-0.5) = -0.0, trunc(2.75) = 2.0, floor(1e10) = 1e10 *)
  f_round TowardMinus FLT 3223322624 = 3225419776 /\ f_round TowardPlus FLT 3204448256 = 2147483648 /\
  f_round TowardZero FLT 1076887552 = 1073741824 /\ f_round TowardMinus FLT 1343554297 = 1343554297.
Proof.
  change (fsize FLT) with 4. split; [intros i j Hi Hj Hne; unfold disj; lia|]. split; [intros i j Hj Hi; unfold disj; lia|].
  repeat split; vm_compute; reflexivity.
Qed.
