(** Compare_Props.v - C16 (comparisons are right at every position), C17 (booleans in place), C18 (mixed signs),
    C46 (expansion tables). *)
From Verif Require Import Base Kernel_Model Kernel_Proofs Kernel_Props Float_Model Compare_Model Compare_Proofs.

(** ---------- specification ---------- *)
Definition csize (t : cty) : Z := match t with I t => isize t | FLOAT => 4 | DOUBLE => 8 end.

(** IEEE-754, from the fields of the pattern: NaN, and the value in units of the smallest subnormal
    (2^-149 or 2^-1074); an infinity gets a value beyond every finite one. *)
Definition fnan (f : fmt) (x : Z) : Prop := fexp f x = emax f /\ ffrac f x <> 0.
Definition fabsval (f : fmt) (x : Z) : Z :=
  if fexp f x =? 0 then ffrac f x else (2 ^ fbits f + ffrac f x) * 2 ^ (fexp f x - 1).
Definition fval (f : fmt) (x : Z) : Z := if fneg f x then - fabsval f x else fabsval f x.

Definition rel (c : cop) (a b : Z) : Prop :=
  match c with CMP_EQ => a = b | CMP_NE => a <> b | CMP_GT => a > b | CMP_GTE => a >= b | CMP_LT => a < b | CMP_LTE => a <= b end.
Definition fholds (f : fmt) (c : cop) (x y : Z) : Prop :=
  match c with
  | CMP_NE => fnan f x \/ fnan f y \/ fval f x <> fval f y
  | _ => ~ fnan f x /\ ~ fnan f y /\ rel c (fval f x) (fval f y)
  end.
(** the comparison of two patterns of type t, read as numbers *)
Definition holds (c : cop) (t : cty) (x y : Z) : Prop :=
  match t with
  | I BOOL => rel c (b2z (truth x)) (b2z (truth y))
  | I t => rel c (number t x) (number t y)
  | FLOAT => fholds FLT c x y
  | DOUBLE => fholds DBL c x y
  end.

(** What a comparison call must do: byte i of the output is 1 if the comparison of the original inputs i holds and
    0 if not; nothing else changes. *)
Definition compared (c : cop) (t : cty) (a1 s1 a2 s2 out so n : Z) (m m' : bytes) : Prop :=
  (forall i, 0 <= i < n ->
     let x := ld (csize t) m (a1 + i * s1) in let y := ld (csize t) m (a2 + i * s2) in
     (holds c t x y /\ m' (out + i * so) = 1) \/ (~ holds c t x y /\ m' (out + i * so) = 0)) /\
  (forall b, (forall i, 0 <= i < n -> b <> out + i * so) -> m' b = m b).

(** Operands: the output bytes are distinct and none of them lies in an input element that is read later. *)
Definition cmp_operands (sz a1 s1 a2 s2 out so n : Z) : Prop :=
  separate out so n /\ no_clobber2 sz a1 s1 out so n /\ no_clobber2 sz a2 s2 out so n.
(** No output byte lies in any input element. *)
Definition apart (sz a1 s1 a2 s2 out so n : Z) : Prop :=
  forall i j, 0 <= i < n -> 0 <= j < n ->
    ~ (a1 + i * s1 <= out + j * so < a1 + i * s1 + sz) /\ ~ (a2 + i * s2 <= out + j * so < a2 + i * s2 + sz).

(** ---------- the loops ---------- *)
Definition did (sz : Z) (cmp : Z -> Z -> bool) (a1 s1 a2 s2 out so n : Z) (m m' : bytes) : Prop :=
  (forall i, 0 <= i < n -> m' (out + i * so) = b2z (cmp (ld sz m (a1 + i * s1)) (ld sz m (a2 + i * s2)))) /\
  (forall b, (forall i, 0 <= i < n -> b <> out + i * so) -> m' b = m b).

Lemma ld1 m a : ld 1 m a = m a.
Proof. unfold ld. change (Z.to_nat 1) with 1%nat. cbn [ldn]. lia. Qed.

Lemma upto_did sz cmp a1 s1 a2 s2 out so n m m' :
  upto 1 out so (fun i => b2z (cmp (ld sz m (a1 + i * s1)) (ld sz m (a2 + i * s2)))) n m m' ->
  did sz cmp a1 s1 a2 s2 out so n m m'.
Proof.
  intros [U1 U2]. split.
  - intros i Hi. rewrite <- ld1. apply U1, Hi.
  - intros b Hb. apply U2. intros i Hi. specialize (Hb i Hi). lia.
Qed.

Lemma loop_did sz cmp a1 s1 a2 s2 out so n m x y : 0 <= sz -> 0 <= n ->
  cmp_operands sz a1 s1 a2 s2 out so n ->
  (x = Ptr a1 s1 \/ s1 = 0 /\ x = Val (ld sz m a1)) -> (y = Ptr a2 s2 \/ s2 = 0 /\ y = Val (ld sz m a2)) ->
  did sz cmp a1 s1 a2 s2 out so n m (cmp_loop sz cmp x y out so n m).
Proof.
  intros Hs Hn (Ho & H1 & H2) Hx Hy. apply upto_did.
  set (F := fun i => b2z (cmp (ld sz m (a1 + i * s1)) (ld sz m (a2 + i * s2)))).
  pose proof (cmp_loop_upto sz cmp out so n F m x y (fun i => ld sz m (a1 + i * s1)) (fun i => ld sz m (a2 + i * s2)) 0 n m) as U.
  replace (out + 0 * so) with out in U by lia. rewrite Z.add_0_l in U.
  apply U; try assumption; try lia; try apply upto_0.
  - intros _. destruct Hx as [->|[-> ->]].
    + pose proof (gives_ptr sz out so n F m a1 s1 0 Hs H1) as D. now replace (a1 + 0 * s1) with a1 in D by lia.
    + now apply gives_val.
  - intros _. destruct Hy as [->|[-> ->]].
    + pose proof (gives_ptr sz out so n F m a2 s2 0 Hs H2) as D. now replace (a2 + 0 * s2) with a2 in D by lia.
    + now apply gives_val.
  - reflexivity.
Qed.

(** the second pass of CompareInt8 over the first elements repeats the answers when no output lies in an input *)
Lemma again_did sz cmp a1 s1 a2 s2 out so n n' m m1 : 0 <= sz -> 0 <= n' <= n ->
  separate out so n -> apart sz a1 s1 a2 s2 out so n ->
  did sz cmp a1 s1 a2 s2 out so n m m1 ->
  did sz cmp a1 s1 a2 s2 out so n m (generic sz cmp a1 a2 out n' s1 s2 so m1).
Proof.
  intros Hs Hn Ho Ha [D1 D2].
  assert (Hin : forall i, 0 <= i < n -> ld sz m1 (a1 + i * s1) = ld sz m (a1 + i * s1) /\ ld sz m1 (a2 + i * s2) = ld sz m (a2 + i * s2)).
  { intros i Hi. split; (apply ld_ext; [exact Hs|]; intros x Hx; apply D2; intros j Hj; destruct (Ha i j Hi Hj); lia). }
  destruct (loop_did sz cmp a1 s1 a2 s2 out so n' m1 (Ptr a1 s1) (Ptr a2 s2)) as [E1 E2]; try tauto; try lia.
  - split; [|split].
    + intros i j Hi Hj Hne. apply Ho; lia.
    + intros i j Hj Hi. apply (Ha i j); lia.
    + intros i j Hj Hi. apply (Ha i j); lia.
  - unfold generic. split.
    + intros i Hi. destruct (Z.lt_ge_cases i n') as [Hlt|Hge].
      * rewrite E1 by lia. destruct (Hin i Hi) as [-> ->]. reflexivity.
      * rewrite E2; [apply D1, Hi|]. intros j Hj. specialize (Ho i j ltac:(lia) ltac:(lia) ltac:(lia)). unfold disj in Ho. lia.
    + intros b Hb. rewrite E2; [apply D2, Hb|]. intros i Hi. apply Hb. lia.
Qed.

Section Shape.
  Variables (sz B L nreg W : Z) (comp : list reg -> list reg -> list Z) (p cmp : Z -> Z -> bool).
  Hypothesis Hsz : 0 < sz.
  Hypothesis HL : 0 < L.
  Hypothesis HBL : B / sz = L.
  Hypothesis HB : B = L * sz.
  Hypothesis Hnr : 0 < nreg.
  Hypothesis HW : W = nreg * L.
  Hypothesis Hcomp : lanes_ok (Z.to_nat nreg) (Z.to_nat L) comp p.
  Hypothesis Hp : forall x y, pat sz x -> pat sz y -> p x y = cmp x y.

  Lemma fast_did a1 s1 a2 s2 out n m q x y tx ty : 0 <= n -> bytes_ok m -> 0 <= q -> q * W <= n ->
    cmp_operands sz a1 s1 a2 s2 out 1 n ->
    (s1 = sz /\ x = Ptr a1 sz /\ (forall m1, tx m1 = Ptr (a1 + B * nreg * q) sz) \/
     s1 = 0 /\ x = Val (ld sz m a1) /\ ((forall m1, tx m1 = Ptr a1 0) \/ (forall m1, tx m1 = Val (ld sz m1 a1)))) ->
    (s2 = sz /\ y = Ptr a2 sz /\ (forall m1, ty m1 = Ptr (a2 + B * nreg * q) sz) \/
     s2 = 0 /\ y = Val (ld sz m a2) /\ ((forall m1, ty m1 = Ptr a2 0) \/ (forall m1, ty m1 = Val (ld sz m1 a2)))) ->
    did sz cmp a1 s1 a2 s2 out 1 n m (fast sz B cmp nreg W comp x y tx ty out n q m).
  Proof.
    intros Hn Hm Hq Hle (Ho & H1 & H2) Hx Hy. apply upto_did.
    set (F := fun i => b2z (cmp (ld sz m (a1 + i * s1)) (ld sz m (a2 + i * s2)))).
    assert (G : forall a s o t, no_clobber2 sz a s out 1 n ->
      (s = sz /\ o = Ptr a sz /\ (forall m1, t m1 = Ptr (a + B * nreg * q) sz) \/
       s = 0 /\ o = Val (ld sz m a) /\ ((forall m1, t m1 = Ptr a 0) \/ (forall m1, t m1 = Val (ld sz m1 a)))) ->
      gives sz out 1 n F m o 0 (fun i => ld sz m (a + i * s)) /\
      (forall m1, q * W < n -> upto 1 out 1 F (q * W) m m1 -> gives sz out 1 n F m (t m1) (q * W) (fun i => ld sz m (a + i * s))) /\
      (forall b s', o = Ptr b s' -> s' = sz)).
    { intros a s o t Hc [(-> & -> & Ht)|(-> & -> & Ht)].
      - split; [|split].
        + pose proof (gives_ptr sz out 1 n F m a sz 0 ltac:(lia) Hc) as D. now replace (a + 0 * sz) with a in D by lia.
        + intros m1 _ _. rewrite Ht. replace (a + B * nreg * q) with (a + (q * W) * sz) by (rewrite HB, HW; ring).
          apply gives_ptr; [lia|exact Hc].
        + intros b s' E. now injection E.
      - split; [now apply gives_val|split; [|intros b s' E; discriminate E]].
        intros m1 Hlt U. destruct Ht as [Ht|Ht]; rewrite Ht.
        + pose proof (gives_ptr sz out 1 n F m a 0 (q * W) ltac:(lia) Hc) as D. now replace (a + q * W * 0) with a in D by lia.
        + apply gives_val.
          assert (0 <= q * W) by nia.
          pose proof (upto1_read sz out 1 F n (q * W) m m1 a 0 (q * W) ltac:(lia) Hc ltac:(lia) Hlt U) as R.
          now replace (a + q * W * 0) with a in R by lia. }
    destruct (G a1 s1 x tx H1 Hx) as (Dx & Tx & Sx). destruct (G a2 s2 y ty H2 Hy) as (Dy & Ty & Sy).
    apply (fast_upto sz B L nreg W comp p cmp Hsz HL HBL HB Hnr HW Hcomp Hp out n F m
       (fun i => ld sz m (a1 + i * s1)) (fun i => ld sz m (a2 + i * s2)) q); try assumption.
    - intros i _. apply ld_pat; [lia|exact Hm].
    - intros i _. apply ld_pat; [lia|exact Hm].
    - reflexivity.
  Qed.

  Lemma shape_did q once ret a1 a2 out n s1 s2 so m : 0 <= n -> bytes_ok m -> 0 <= q -> q * W <= n ->
    cmp_operands sz a1 s1 a2 s2 out so n ->
    (ret = true \/ (s1 = sz -> s2 = sz -> so = 1 -> apart sz a1 s1 a2 s2 out so n)) ->
    did sz cmp a1 s1 a2 s2 out so n m (CompareShape sz B cmp nreg W comp q once ret a1 a2 out n s1 s2 so m).
  Proof.
    intros Hn Hm Hq Hle Hop Hret. unfold CompareShape.
    assert (Gen : did sz cmp a1 s1 a2 s2 out so n m (generic sz cmp a1 a2 out n s1 s2 so m)) by (apply loop_did; try tauto; lia).
    destruct (Z.eqb_spec so 1) as [->|]; [|exact Gen].
    destruct (Z.eqb_spec s1 0) as [E1|E1].
    { destruct (Z.eqb_spec s2 sz) as [E2|]; [|exact Gen].
      apply fast_did; try assumption; [right|left]; (split; [assumption|]); split; try reflexivity.
      destruct once; [right|left]; reflexivity. }
    destruct (Z.eqb_spec s2 0) as [E2|E2].
    { destruct (Z.eqb_spec s1 sz) as [E3|]; [|exact Gen].
      apply fast_did; try assumption; [left|right]; (split; [assumption|]); split; try reflexivity.
      destruct once; [right|left]; reflexivity. }
    destruct (Z.eqb_spec s1 sz) as [E3|]; [|exact Gen].
    destruct (Z.eqb_spec s2 sz) as [E4|]; [|exact Gen]. cbn [andb].
    assert (Fd : did sz cmp a1 s1 a2 s2 out 1 n m (fast sz B cmp nreg W comp (Ptr a1 sz) (Ptr a2 sz)
       (fun _ => Ptr (a1 + B * nreg * q) sz) (fun _ => Ptr (a2 + B * nreg * q) sz) out n q m)).
    { apply fast_did; try assumption; left; (split; [assumption|]); split; reflexivity. }
    destruct ret; [exact Fd|]. destruct Hret as [Hr|Hr]; [discriminate Hr|].
    assert (0 <= q * W) by nia.
    apply again_did; try assumption; try lia; [apply Hop|apply Hr; assumption || reflexivity].
  Qed.
End Shape.

Lemma any_did sz cmp a1 a2 out n s1 s2 so m : 0 <= sz -> 0 <= n -> cmp_operands sz a1 s1 a2 s2 out so n ->
  did sz cmp a1 s1 a2 s2 out so n m (CompareAny sz cmp a1 a2 out n s1 s2 so m).
Proof.
  intros Hs Hn Hop. unfold CompareAny, generic.
  destruct (Z.eqb_spec so 1) as [->|]; [|apply loop_did; tauto].
  destruct (Z.eqb_spec s1 0) as [E1|E1].
  { destruct (Z.eqb_spec s2 sz) as [->|]; apply loop_did; tauto. }
  destruct (Z.eqb_spec s2 0) as [E2|E2].
  { destruct (Z.eqb_spec s1 sz) as [->|]; apply loop_did; tauto. }
  destruct (Z.eqb_spec s2 sz) as [->|]; [|apply loop_did; tauto].
  destruct (Z.eqb_spec s1 sz) as [->|]; apply loop_did; tauto.
Qed.

(** ---------- floating point: pattern order is value order ---------- *)
Section FloatOrder.
  Variable f : fmt.
  Hypothesis Hp : 0 < fbits f.
  Hypothesis Hw : fbits f < fwidth f - 1.
  Let G (m : Z) : Z := if m / 2 ^ fbits f =? 0 then m mod 2 ^ fbits f else (2 ^ fbits f + m mod 2 ^ fbits f) * 2 ^ (m / 2 ^ fbits f - 1).

  Lemma P0 : 0 < 2 ^ fbits f. Proof. apply Z.pow_pos_nonneg; lia. Qed.

  Lemma G_bounds m : 0 <= m -> 0 <= G m < 2 ^ (fbits f + m / 2 ^ fbits f) /\
    (0 < m / 2 ^ fbits f -> 2 ^ (fbits f + m / 2 ^ fbits f - 1) <= G m).
  Proof.
    intros Hm. pose proof P0 as HP. unfold G. set (e := m / 2 ^ fbits f). set (r := m mod 2 ^ fbits f).
    assert (He : 0 <= e) by (apply Z.div_pos; lia). assert (Hr : 0 <= r < 2 ^ fbits f) by (apply Z.mod_pos_bound; lia).
    destruct (Z.eqb_spec e 0) as [->|Hne].
    - rewrite Z.add_0_r. split; [lia|lia].
    - replace (fbits f + e) with (fbits f + 1 + (e - 1)) by lia.
      replace (fbits f + 1 + (e - 1) - 1) with (fbits f + (e - 1)) by lia.
      rewrite !Z.pow_add_r by lia. assert (0 < 2 ^ (e - 1)) by (apply Z.pow_pos_nonneg; lia). change (2 ^ 1) with 2. split; [nia|]. nia.
  Qed.

  Lemma G_mono m m' : 0 <= m < m' -> G m < G m'.
  Proof.
    intros Hm. pose proof P0 as HP.
    destruct (G_bounds m ltac:(lia)) as [B1 _]. destruct (G_bounds m' ltac:(lia)) as [B2 B3].
    pose proof (Z.div_mod m (2 ^ fbits f) ltac:(lia)) as D1. pose proof (Z.div_mod m' (2 ^ fbits f) ltac:(lia)) as D2.
    pose proof (Z.mod_pos_bound m (2 ^ fbits f) HP) as M1. pose proof (Z.mod_pos_bound m' (2 ^ fbits f) HP) as M2.
    assert (Hle : m / 2 ^ fbits f <= m' / 2 ^ fbits f) by (apply Z.div_le_mono; lia).
    assert (He : 0 <= m / 2 ^ fbits f) by (apply Z.div_pos; lia).
    destruct (Z.eq_dec (m / 2 ^ fbits f) (m' / 2 ^ fbits f)) as [E|NE].
    - unfold G. rewrite E in *. destruct (Z.eqb_spec (m' / 2 ^ fbits f) 0) as [|Hne]; [lia|].
      assert (0 < 2 ^ (m' / 2 ^ fbits f - 1)) by (apply Z.pow_pos_nonneg; lia). nia.
    - eapply Z.lt_le_trans; [apply B1|]. etransitivity; [|apply B3; lia]. apply Z.pow_le_mono_r; lia.
  Qed.
  Lemma G_0 : G 0 = 0.
  Proof. unfold G. rewrite Z.div_0_l, Z.mod_0_l by (pose proof P0; lia). reflexivity. Qed.
  Lemma mag_range x : 0 <= fmag f x < 2 ^ (fwidth f - 1).
  Proof. apply Z.mod_pos_bound, Z.pow_pos_nonneg; lia. Qed.

  Lemma key_val x y : (fkey f x < fkey f y <-> fval f x < fval f y) /\ (fkey f x = fkey f y <-> fval f x = fval f y).
  Proof.
    pose proof (mag_range x) as Rx. pose proof (mag_range y) as Ry.
    unfold fkey, fval. change (fabsval f x) with (G (fmag f x)). change (fabsval f y) with (G (fmag f y)).
    pose proof (G_bounds (fmag f x) ltac:(lia)) as [Bx _]. pose proof (G_bounds (fmag f y) ltac:(lia)) as [By _].
    pose proof (fun H => G_mono 0 (fmag f x) H) as Mx. pose proof (fun H => G_mono 0 (fmag f y) H) as My. rewrite G_0 in Mx, My.
    assert (Cases : fmag f x < fmag f y /\ G (fmag f x) < G (fmag f y) \/ fmag f x = fmag f y /\ G (fmag f x) = G (fmag f y) \/ fmag f y < fmag f x /\ G (fmag f y) < G (fmag f x)).
    { destruct (Z.lt_trichotomy (fmag f x) (fmag f y)) as [C|[C|C]].
      - left. split; [exact C|apply G_mono; lia].
      - right. left. split; [exact C|now rewrite C].
      - right. right. split; [exact C|apply G_mono; lia]. }
    assert (Zx : fmag f x = 0 -> G (fmag f x) = 0) by (intros ->; apply G_0).
    assert (Zy : fmag f y = 0 -> G (fmag f y) = 0) by (intros ->; apply G_0).
    destruct (Z.eq_dec (fmag f x) 0) as [Ex|Ex]; destruct (Z.eq_dec (fmag f y) 0) as [Ey|Ey];
      try specialize (Zx Ex); try specialize (Zy Ey); try specialize (Mx ltac:(lia)); try specialize (My ltac:(lia));
      destruct (fneg f x); destruct (fneg f y); lia.
  Qed.

  Lemma nan_iff x : is_nan f x = true <-> fnan f x.
  Proof.
    pose proof (mag_range x) as R. pose proof P0 as HP. unfold is_nan, fnan, finf, fexp, ffrac, emax, ebits.
    replace (fwidth f - 1) with (fwidth f - 1 - fbits f + fbits f) in R by lia. rewrite Z.pow_add_r in R by lia.
    set (E := 2 ^ (fwidth f - 1 - fbits f)) in *. set (P := 2 ^ fbits f) in *.
    pose proof (Z.div_mod (fmag f x) P ltac:(lia)) as D. pose proof (Z.mod_pos_bound (fmag f x) P HP) as M.
    set (q := fmag f x / P) in *. set (r := fmag f x mod P) in *. clearbody q r.
    rewrite Z.ltb_lt. split.
    - intros H. assert (q < E) by nia. assert (E - 1 <= q) by nia. assert (q = E - 1) by lia. subst q. split; [reflexivity|]. nia.
    - intros [-> Hr]. nia.
  Qed.

  Lemma fops_holds c x y : fops f c x y = true <-> fholds f c x y.
  Proof.
    destruct (key_val x y) as [K1 K2]. destruct (key_val y x) as [K3 K4].
    pose proof (nan_iff x) as Nx. pose proof (nan_iff y) as Ny.
    destruct c; cbn [fops fholds rel]; unfold f_eq, f_ne, f_gt, f_ge, f_lt, f_le, ordered;
      destruct (is_nan f x); destruct (is_nan f y); cbn [negb andb orb];
      rewrite ?negb_true_iff, ?Z.eqb_eq, ?Z.eqb_neq, ?Z.ltb_lt, ?Z.leb_le; intuition (try discriminate; try lia).
  Qed.
End FloatOrder.

(** ---------- C16 ---------- *)
Lemma did_compared c t cmp a1 s1 a2 s2 out so n m m' : bytes_ok m ->
  (forall x y, pat (csize t) x -> pat (csize t) y -> (cmp x y = true <-> holds c t x y)) ->
  did (csize t) cmp a1 s1 a2 s2 out so n m m' -> compared c t a1 s1 a2 s2 out so n m m'.
Proof.
  intros Hm Hc [D1 D2]. split; [|exact D2]. intros i Hi. cbv zeta. rewrite (D1 i Hi).
  assert (Hs : 0 <= csize t) by (destruct t as [[]| |]; cbn; lia).
  pose proof (Hc _ _ (ld_pat (csize t) m (a1 + i * s1) Hs Hm) (ld_pat (csize t) m (a2 + i * s2) Hs Hm)) as E.
  destruct (cmp _ _) eqn:C.
  - left. split; [now apply E|reflexivity].
  - right. split; [|reflexivity]. intros H. apply E in H. discriminate H.
Qed.

(** the comparison a table entry is meant to make *)
Definition meant (c : cop) (t : cty) : Z -> Z -> bool :=
  match t with
  | I BOOL => match c with CMP_EQ => b_eq | CMP_NE => b_ne | CMP_GT => b_gt | CMP_GTE => b_ge | CMP_LT => b_lt | CMP_LTE => b_le end
  | I ((UINT8 | UINT16 | UINT32 | UINT64) as u) =>
      match c with CMP_EQ => s_eq (width u) | CMP_NE => s_ne (width u) | CMP_GT => u_gt | CMP_GTE => u_ge | CMP_LT => u_lt | CMP_LTE => u_le end
  | I s => sops (width s) c
  | FLOAT => fops FLT c
  | DOUBLE => fops DBL c
  end.

Lemma meant_holds c t x y : pat (csize t) x -> pat (csize t) y -> (meant c t x y = true <-> holds c t x y).
Proof.
  intros Hx Hy. destruct t as [t| |].
  - apply pat_width in Hx. apply pat_width in Hy. pose proof (width_pos t) as Wp.
    destruct t; destruct c; cbn [meant holds sops number signed rel];
      unfold b_eq, b_ne, b_gt, b_ge, b_lt, b_le, s_eq, s_ne, s_gt, s_ge, s_lt, s_le, u_gt, u_ge, u_lt, u_le, truth, tr;
      rewrite ?negb_true_iff, ?Z.eqb_eq, ?Z.eqb_neq, ?Z.ltb_lt, ?Z.leb_le; try tauto; try lia;
      try (destruct (x =? 0); destruct (y =? 0); cbn; intuition (lia || congruence)).
    all: (split; [intros H E|intros H E]; apply H; first [exact (sval_inj _ _ _ Wp Hx Hy E)|now rewrite E])
       || (split; [intros E; exact (sval_inj _ _ _ Wp Hx Hy E)|intros ->; reflexivity]).
  - apply fops_holds; reflexivity.
  - apply fops_holds; reflexivity.
Qed.

Lemma eqb_sval w x y : 0 < w -> 0 <= x < 2 ^ w -> 0 <= y < 2 ^ w -> (x =? y) = s_eq w x y.
Proof.
  intros Hw Hx Hy. unfold s_eq. destruct (Z.eqb_spec x y) as [->|N]; [now rewrite Z.eqb_refl|].
  symmetry. apply Z.eqb_neq. intros E. apply N. exact (sval_inj w x y Hw Hx Hy E).
Qed.



Lemma negb_flip w x y : s_le w x y = negb (sval w y <? sval w x) /\ s_ge w x y = negb (sval w x <? sval w y).
Proof. unfold s_le, s_ge. split; lia. Qed.
Lemma sv1 a : sval 8 (Z.min a 1) = Z.min a 1.
Proof. unfold sval. change (2 ^ (8 - 1)) with 128. destruct (Z.ltb_spec (Z.min a 1) 128); lia. Qed.

Lemma entry_did c t a1 a2 out n s1 s2 so m : 0 <= n -> bytes_ok m ->
  cmp_operands (csize t) a1 s1 a2 s2 out so n ->
  (csize t = 1 -> s1 = 1 -> s2 = 1 -> so = 1 -> apart 1 a1 s1 a2 s2 out so n) ->
  did (csize t) (meant c t) a1 s1 a2 s2 out so n m (GetComparisonOpFast c t a1 a2 out n s1 s2 so m).
Proof.
  intros Hn Hm Hop Hap.
  assert (Hd : forall k, 0 < k -> 0 <= n / k /\ n / k * k <= n).
  { intros k Hk. pose proof (Z.div_mod n k ltac:(lia)). pose proof (Z.mod_pos_bound n k Hk). pose proof (Z.div_pos n k ltac:(lia) Hk). lia. }
  assert (H64 : 0 <= rounds64 n /\ rounds64 n * 16 <= n).
  { unfold rounds64. pose proof (Z.div_mod (n - 16 + 15) 16 ltac:(lia)). pose proof (Z.mod_pos_bound (n - 16 + 15) 16 ltac:(lia)). lia. }
  destruct (Hd 32 ltac:(lia)) as [A32 B32]. destruct (Hd 16 ltac:(lia)) as [A16 B16]. destruct (Hd 8 ltac:(lia)) as [A8 B8].
  assert (HA : forall cmp, did (csize t) cmp a1 s1 a2 s2 out so n m (CompareAny (csize t) cmp a1 a2 out n s1 s2 so m)).
  { intros cmp. apply any_did; try assumption. destruct t as [[]| |]; cbn; lia. }
  assert (T8 : forall comp p cmp once, lanes_ok 1 32 comp p -> (forall x y, pat 1 x -> pat 1 y -> p x y = cmp x y) -> csize t = 1 ->
     did 1 cmp a1 s1 a2 s2 out so n m (CompareShape 1 32 cmp 1 32 comp (n / 32) once false a1 a2 out n s1 s2 so m)).
  { intros comp p cmp once L P E. rewrite E in Hop.
    apply (shape_did 1 32 32 1 32 comp p cmp); try assumption; try reflexivity; try lia.
    right. intros. apply Hap; assumption. }
  assert (T16 : forall comp p cmp once, lanes_ok 1 16 comp p -> (forall x y, pat 2 x -> pat 2 y -> p x y = cmp x y) -> csize t = 2 ->
     did 2 cmp a1 s1 a2 s2 out so n m (CompareShape 2 32 cmp 1 16 comp (n / 16) once true a1 a2 out n s1 s2 so m)).
  { intros comp p cmp once L P E. rewrite E in Hop.
    apply (shape_did 2 32 16 1 16 comp p cmp); try assumption; try reflexivity; try lia. }
  assert (T32 : forall comp p cmp once, lanes_ok 1 8 comp p -> (forall x y, pat 4 x -> pat 4 y -> p x y = cmp x y) -> csize t = 4 ->
     did 4 cmp a1 s1 a2 s2 out so n m (CompareShape 4 32 cmp 1 8 comp (n / 8) once true a1 a2 out n s1 s2 so m)).
  { intros comp p cmp once L P E. rewrite E in Hop.
    apply (shape_did 4 32 8 1 8 comp p cmp); try assumption; try reflexivity; try lia. }
  assert (T32S : forall comp p cmp once, lanes_ok 4 8 comp p -> (forall x y, pat 4 x -> pat 4 y -> p x y = cmp x y) -> csize t = 4 ->
     did 4 cmp a1 s1 a2 s2 out so n m (CompareShape 4 32 cmp 4 32 comp (n / 32) once true a1 a2 out n s1 s2 so m)).
  { intros comp p cmp once L P E. rewrite E in Hop.
    apply (shape_did 4 32 8 4 32 comp p cmp); try assumption; try reflexivity; try lia. }
  assert (T64 : forall comp p cmp once, lanes_ok 4 4 comp p -> (forall x y, pat 8 x -> pat 8 y -> p x y = cmp x y) -> csize t = 8 ->
     did 8 cmp a1 s1 a2 s2 out so n m (CompareShape 8 32 cmp 4 16 comp (rounds64 n) once true a1 a2 out n s1 s2 so m)).
  { intros comp p cmp once L P E. rewrite E in Hop.
    apply (shape_did 8 32 4 4 16 comp p cmp); try assumption; try reflexivity; try lia. }
  assert (TD : forall comp p cmp once, lanes_ok 4 2 comp p -> (forall x y, pat 8 x -> pat 8 y -> p x y = cmp x y) -> csize t = 8 ->
     did 8 cmp a1 s1 a2 s2 out so n m (CompareShape 8 16 cmp 4 8 comp (n / 8) once true a1 a2 out n s1 s2 so m)).
  { intros comp p cmp once L P E. rewrite E in Hop.
    apply (shape_did 8 16 2 4 8 comp p cmp); try assumption; try reflexivity; try lia. }
  clear Hop Hap Hd H64 A32 B32 A16 B16 A8 B8.
  destruct t as [t| |].
  2:{ apply (T32S _ (fops FLT c)); [apply float_lanes|reflexivity|reflexivity]. }
  2:{ apply (TD _ (fops DBL c)); [apply double_lanes|reflexivity|reflexivity]. }
  destruct t; destruct c; try exact (HA _); clear HA.
  (* BOOL *)
  1: apply (T8 _ (fun a b => Z.eqb (Z.min a 1) (Z.min b 1))); [exact (compB_lanes _ _ (comp8_lanes Z.eqb))| |reflexivity].
  2: apply (T8 _ (fun a b => negb (Z.eqb (Z.min a 1) (Z.min b 1)))); [exact (compB_lanes _ _ (comp8_lanes_inv Z.eqb))| |reflexivity].
  3: apply (T8 _ (fun a b => sval 8 (Z.min b 1) <? sval 8 (Z.min a 1))); [exact (compB_lanes _ _ (comp8_lanes _))| |reflexivity].
  4: apply (T8 _ (fun a b => negb (sval 8 (Z.min a 1) <? sval 8 (Z.min b 1)))); [exact (compB_lanes _ _ (one_swap _ _ _ (comp8_lanes_inv _)))| |reflexivity].
  5: apply (T8 _ (fun a b => sval 8 (Z.min a 1) <? sval 8 (Z.min b 1))); [exact (compB_lanes _ _ (one_swap _ _ _ (comp8_lanes _)))| |reflexivity].
  6: apply (T8 _ (fun a b => negb (sval 8 (Z.min b 1) <? sval 8 (Z.min a 1)))); [exact (compB_lanes _ _ (comp8_lanes_inv _))| |reflexivity].
  1-6: unfold pat, meant, b_eq, b_ne, b_gt, b_ge, b_lt, b_le, tr; intros x y Hx Hy; rewrite ?sv1;
       destruct (Z.eqb_spec x 0); destruct (Z.eqb_spec y 0); cbn [negb andb orb]; lia.
  (* the rest, by width and comparison *)
  all: cbn [GetComparisonOpFast meant csize isize sops width Z.mul Pos.mul];
       unfold CompareInt8, CompareInt16, CompareInt32, CompareInt32S, CompareInt64.
  all: first
    [ apply (T8 _ Z.eqb); [exact (comp8_lanes Z.eqb)|intros x y Hx Hy; apply eqb_sval; [reflexivity|exact Hx|exact Hy]|reflexivity]
    | apply (T8 _ (fun a b => negb (a =? b))); [exact (comp8_lanes_inv Z.eqb)|intros x y Hx Hy; unfold s_ne; f_equal; apply eqb_sval; [reflexivity|exact Hx|exact Hy]|reflexivity]
    | apply (T8 _ (fun a b => sval 8 b <? sval 8 a)); [exact (comp8_lanes _)|reflexivity|reflexivity]
    | apply (T8 _ (fun a b => sval 8 a <? sval 8 b)); [exact (one_swap _ _ _ (comp8_lanes _))|reflexivity|reflexivity]
    | apply (T8 _ (fun a b => negb (sval 8 a <? sval 8 b))); [exact (one_swap _ _ _ (comp8_lanes_inv _))|intros x y Hx Hy; unfold s_ge; lia|reflexivity]
    | apply (T8 _ (fun a b => negb (sval 8 b <? sval 8 a))); [exact (comp8_lanes_inv _)|intros x y Hx Hy; unfold s_le; lia|reflexivity]
    | apply (T16 _ Z.eqb); [exact (comp16_lanes Z.eqb)|intros x y Hx Hy; apply eqb_sval; [reflexivity|exact Hx|exact Hy]|reflexivity]
    | apply (T16 _ (fun a b => negb (a =? b))); [exact (comp16_lanes_inv Z.eqb)|intros x y Hx Hy; unfold s_ne; f_equal; apply eqb_sval; [reflexivity|exact Hx|exact Hy]|reflexivity]
    | apply (T16 _ (fun a b => sval 16 b <? sval 16 a)); [exact (comp16_lanes _)|reflexivity|reflexivity]
    | apply (T16 _ (fun a b => sval 16 a <? sval 16 b)); [exact (one_swap _ _ _ (comp16_lanes _))|reflexivity|reflexivity]
    | apply (T16 _ (fun a b => negb (sval 16 a <? sval 16 b))); [exact (one_swap _ _ _ (comp16_lanes_inv _))|intros x y Hx Hy; unfold s_ge; lia|reflexivity]
    | apply (T16 _ (fun a b => negb (sval 16 b <? sval 16 a))); [exact (comp16_lanes_inv _)|intros x y Hx Hy; unfold s_le; lia|reflexivity]
    | apply (T32S _ Z.eqb); [exact EQS_lanes|intros x y Hx Hy; apply eqb_sval; [reflexivity|exact Hx|exact Hy]|reflexivity]
    | apply (T32 _ Z.eqb); [exact (comp32_lanes Z.eqb)|intros x y Hx Hy; apply eqb_sval; [reflexivity|exact Hx|exact Hy]|reflexivity]
    | apply (T32 _ (fun a b => negb (a =? b))); [exact (comp32_lanes_inv Z.eqb)|intros x y Hx Hy; unfold s_ne; f_equal; apply eqb_sval; [reflexivity|exact Hx|exact Hy]|reflexivity]
    | apply (T32 _ (fun a b => sval 32 b <? sval 32 a)); [exact (comp32_lanes _)|reflexivity|reflexivity]
    | apply (T32 _ (fun a b => sval 32 a <? sval 32 b)); [exact (one_swap _ _ _ (comp32_lanes (fun a b => sval 32 b <? sval 32 a)))|reflexivity|reflexivity]
    | apply (T32 _ (fun a b => negb (sval 32 a <? sval 32 b))); [exact (one_swap _ _ _ (comp32_lanes_inv (fun a b => sval 32 b <? sval 32 a)))|intros x y Hx Hy; unfold s_ge; lia|reflexivity]
    | apply (T32 _ (fun a b => negb (sval 32 b <? sval 32 a))); [exact (comp32_lanes_inv _)|intros x y Hx Hy; unfold s_le; lia|reflexivity]
    | apply (T64 _ (fun a b => xorb false (a =? b))); [exact (comp64_lanes Z.eqb false)|intros x y Hx Hy; rewrite xorb_false_l; apply eqb_sval; [reflexivity|exact Hx|exact Hy]|reflexivity]
    | apply (T64 _ (fun a b => xorb true (a =? b))); [exact (comp64_lanes Z.eqb true)|intros x y Hx Hy; rewrite xorb_true_l; unfold s_ne; f_equal; apply eqb_sval; [reflexivity|exact Hx|exact Hy]|reflexivity]
    | apply (T64 _ (fun a b => xorb false (sval 64 b <? sval 64 a))); [exact (comp64_lanes _ false)|intros; apply xorb_false_l|reflexivity]
    | apply (T64 _ (fun a b => xorb false (sval 64 a <? sval 64 b))); [exact (comp64_lanes_swap (fun a b => sval 64 b <? sval 64 a) false)|intros; apply xorb_false_l|reflexivity]
    | apply (T64 _ (fun a b => xorb true (sval 64 a <? sval 64 b))); [exact (comp64_lanes_swap (fun a b => sval 64 b <? sval 64 a) true)|intros x y Hx Hy; rewrite xorb_true_l; unfold s_ge; lia|reflexivity]
    | apply (T64 _ (fun a b => xorb true (sval 64 b <? sval 64 a))); [exact (comp64_lanes _ true)|intros x y Hx Hy; rewrite xorb_true_l; unfold s_le; lia|reflexivity] ].
Qed.

(** C16.  Every comparison of every integer, boolean and floating type, for every length, strides and contents,
    writes exactly 1 or 0 at each element's own position.  For one-byte items with unit strides the output must not
    meet the inputs (see C17 for what happens when it does). *)
Theorem C16_compare_right : forall c t a1 a2 out n s1 s2 so m,
  0 <= n -> bytes_ok m ->
  cmp_operands (csize t) a1 s1 a2 s2 out so n ->
  (csize t = 1 -> s1 = 1 -> s2 = 1 -> so = 1 -> apart 1 a1 s1 a2 s2 out so n) ->
  compared c t a1 s1 a2 s2 out so n m (GetComparisonOpFast c t a1 a2 out n s1 s2 so m).
Proof.
  intros c t a1 a2 out n s1 s2 so m Hn Hm Hop Hap.
  apply did_compared with (cmp := meant c t); [exact Hm|intros; now apply meant_holds|].
  now apply entry_did.
Qed.
Print Assumptions C16_compare_right.

(** The byte written depends on nothing but the two elements at that position: positions are never exchanged. *)
Corollary C16_position_independent : forall c t a1 a2 out n s1 s2 m b1 b2 out' n' s1' s2' m' i i',
  0 <= i < n -> 0 <= i' < n' -> bytes_ok m -> bytes_ok m' ->
  cmp_operands (csize t) a1 s1 a2 s2 out 1 n -> cmp_operands (csize t) b1 s1' b2 s2' out' 1 n' ->
  apart (csize t) a1 s1 a2 s2 out 1 n -> apart (csize t) b1 s1' b2 s2' out' 1 n' ->
  ld (csize t) m (a1 + i * s1) = ld (csize t) m' (b1 + i' * s1') ->
  ld (csize t) m (a2 + i * s2) = ld (csize t) m' (b2 + i' * s2') ->
  GetComparisonOpFast c t a1 a2 out n s1 s2 1 m (out + i * 1) = GetComparisonOpFast c t b1 b2 out' n' s1' s2' 1 m' (out' + i' * 1).
Proof.
  intros. assert (E1 := entry_did c t a1 a2 out n s1 s2 1 m). assert (E2 := entry_did c t b1 b2 out' n' s1' s2' 1 m').
  destruct E1 as [E1 _]; try assumption; try lia. { intros E _ _ _. rewrite E in *. assumption. }
  destruct E2 as [E2 _]; try assumption; try lia. { intros E _ _ _. rewrite E in *. assumption. }
  rewrite E1, E2 by lia. now rewrite H7, H8.
Qed.

(** separate arrays meet the hypotheses *)
Lemma operands_apart sz a1 a2 out n : 0 < sz -> 0 <= n ->
  (a1 + n * sz <= out \/ out + n <= a1) -> (a2 + n * sz <= out \/ out + n <= a2) ->
  cmp_operands sz a1 sz a2 sz out 1 n /\ apart sz a1 sz a2 sz out 1 n.
Proof.
  intros Hs Hn H1 H2.
  assert (A : apart sz a1 sz a2 sz out 1 n) by (intros i j Hi Hj; split; nia).
  split; [|exact A]. split; [intros i j Hi Hj Hne; unfold disj; lia|split; intros i j Hj Hi; apply (A i j); lia].
Qed.

(** 40 int64 pairs at 0 and 320, output at 640 *)
Example C16_nonvacuous :
  let m := fun a => if a =? 8 then 255 else if a =? 320 + 8 * 39 then 7 else 0 in
  let m' := GetComparisonOpFast CMP_LT (I INT64) 0 320 640 40 8 8 1 m in
  cmp_operands 8 0 8 320 8 640 1 40 /\ m' 640 = 0 /\ m' 641 = 0 /\ m' (640 + 39) = 1 /\
  GetComparisonOpFast CMP_GT (I INT64) 0 320 640 40 8 8 1 m 641 = 1.
Proof. split; [apply operands_apart; lia|vm_compute; auto]. Qed.

(** one answer per lane of a 32-wide EQ round, distinct inputs: only position 13 differs *)
Example C16_eq_positions :
  let m := fun a => if a =? 4 * 13 then 1 else 0 in
  map (GetComparisonOpFast CMP_EQ (I INT32) 0 200 400 35 4 4 1 m) (zrange 412 415) = [1; 0; 1].
Proof. vm_compute. reflexivity. Qed.

(** ---------- C46 ---------- *)
Theorem C46_tables : 
  (forall i j, 0 <= i < 256 -> 0 <= j < 8 ->
     gBooleanLUT64 i / 256 ^ j mod 256 = (if Z.testbit i j then 1 else 0) /\
     gBooleanLUT64Inverse i / 256 ^ j mod 256 = (if Z.testbit i j then 0 else 1)) /\
  (forall i j, 0 <= i < 16 -> 0 <= j < 4 ->
     gBooleanLUT32 i / 256 ^ j mod 256 = (if Z.testbit i j then 1 else 0) /\
     gBooleanLUT32Inverse i / 256 ^ j mod 256 = (if Z.testbit i j then 0 else 1)) /\
  (forall i, 0 <= i < 256 -> 0 <= gBooleanLUT64 i < 2 ^ 64 /\ 0 <= gBooleanLUT64Inverse i < 2 ^ 64) /\
  (forall i, 0 <= i < 16 -> 0 <= gBooleanLUT32 i < 2 ^ 32 /\ 0 <= gBooleanLUT32Inverse i < 2 ^ 32).
Proof.
  split; [|split; [|split]].
  - intros i j Hi Hj.
    pose proof (all_in (fun i => forallb (fun j => (gBooleanLUT64 i / 256 ^ j mod 256 =? (if Z.testbit i j then 1 else 0)) &&
      (gBooleanLUT64Inverse i / 256 ^ j mod 256 =? (if Z.testbit i j then 0 else 1))) (zrange 0 8)) 0 256 ltac:(vm_compute; reflexivity) i Hi) as E.
    cbv beta in E. pose proof (all_in _ 0 8 E j Hj) as E'. cbv beta in E'. apply andb_true_iff in E'. rewrite !Z.eqb_eq in E'. exact E'.
  - intros i j Hi Hj.
    pose proof (all_in (fun i => forallb (fun j => (gBooleanLUT32 i / 256 ^ j mod 256 =? (if Z.testbit i j then 1 else 0)) &&
      (gBooleanLUT32Inverse i / 256 ^ j mod 256 =? (if Z.testbit i j then 0 else 1))) (zrange 0 4)) 0 16 ltac:(vm_compute; reflexivity) i Hi) as E.
    cbv beta in E. pose proof (all_in _ 0 4 E j Hj) as E'. cbv beta in E'. apply andb_true_iff in E'. rewrite !Z.eqb_eq in E'. exact E'.
  - intros i Hi.
    pose proof (all_in (fun i => (0 <=? gBooleanLUT64 i) && (gBooleanLUT64 i <? 2 ^ 64) && ((0 <=? gBooleanLUT64Inverse i) && (gBooleanLUT64Inverse i <? 2 ^ 64))) 0 256 ltac:(vm_compute; reflexivity) i Hi) as E.
    cbv beta in E. lia.
  - intros i Hi.
    pose proof (all_in (fun i => (0 <=? gBooleanLUT32 i) && (gBooleanLUT32 i <? 2 ^ 32) && ((0 <=? gBooleanLUT32Inverse i) && (gBooleanLUT32Inverse i <? 2 ^ 32))) 0 16 ltac:(vm_compute; reflexivity) i Hi) as E.
    cbv beta in E. lia.
Qed.
Print Assumptions C46_tables.
Example C46_nonvacuous : gBooleanLUT64 130 = 72057594037928192 /\ gBooleanLUT32Inverse 5 = 16777472.
Proof. vm_compute. auto. Qed.

(** ---------- C17: boolean comparison into one of its inputs ---------- *)
(** What CompareInt8 does when the output is the first input: right from element n mod 32 on; the first n mod 32
    answers are compared with y a second time. *)
Definition cmpb (c : cop) := meant c (I BOOL).

Lemma bool_shape c a1 a2 out n m : exists comp p,
  lanes_ok 1 32 comp p /\ (forall x y, pat 1 x -> pat 1 y -> p x y = cmpb c x y) /\
  GetComparisonOpFast c (I BOOL) a1 a2 out n 1 1 1 m = CompareShape 1 32 (cmpb c) 1 32 comp (n / 32) false false a1 a2 out n 1 1 1 m.
Proof.
  destruct c; eexists; eexists; (split; [|split; [|reflexivity]]).
  1: exact (compB_lanes _ _ (comp8_lanes Z.eqb)).
  2: exact (compB_lanes _ _ (comp8_lanes_inv Z.eqb)).
  3: exact (compB_lanes _ _ (comp8_lanes _)).
  4: exact (compB_lanes _ _ (one_swap _ _ _ (comp8_lanes_inv _))).
  5: exact (compB_lanes _ _ (one_swap _ _ _ (comp8_lanes _))).
  6: exact (compB_lanes _ _ (comp8_lanes_inv _)).
  all: unfold pat, cmpb, meant, b_eq, b_ne, b_gt, b_ge, b_lt, b_le, tr; intros x y Hx Hy; rewrite ?sv1;
       destruct (Z.eqb_spec x 0); destruct (Z.eqb_spec y 0); cbn [negb andb orb]; lia.
Qed.

Theorem C17_first_input_exact_partial : forall c a1 a2 n m, 0 <= n -> bytes_ok m ->
  (a1 + n <= a2 \/ a2 + n <= a1) ->
  let m' := GetComparisonOpFast c (I BOOL) a1 a2 a1 n 1 1 1 m in
  forall i, 0 <= i < n ->
    let x := m (a1 + i) in let y := m (a2 + i) in
    m' (a1 + i) = (if i <? n mod 32 then b2z (cmpb c (b2z (cmpb c x y)) y) else b2z (cmpb c x y)).
Proof.
  intros c a1 a2 n m Hn Hm Hd m' i Hi x y. destruct (bool_shape c a1 a2 a1 n m) as (comp & p & L & P & E).
  unfold m'. rewrite E. unfold CompareShape. cbn [Z.eqb andb Pos.eqb].
  pose proof (Z.div_mod n 32 ltac:(lia)) as D. pose proof (Z.mod_pos_bound n 32 ltac:(lia)) as M.
  pose proof (Z.div_pos n 32 ltac:(lia) ltac:(lia)) as Q0.
  assert (Sep : forall k, separate a1 1 k) by (intros k u v Hu Hv Huv; unfold disj; lia).
  destruct (fast_did 1 32 32 1 32 comp p (cmpb c)) with (a1 := a1) (s1 := 1) (a2 := a2) (s2 := 1) (out := a1) (n := n) (m := m) (q := n / 32)
    (x := Ptr a1 1) (y := Ptr a2 1) (tx := fun _ : bytes => Ptr (a1 + 32 * 1 * (n / 32)) 1) (ty := fun _ : bytes => Ptr (a2 + 32 * 1 * (n / 32)) 1) as [F1 F2];
    try assumption; try reflexivity; try lia.
  { split; [apply Sep|split; intros u v Hv Hu; lia]. }
  { left. repeat split; reflexivity. }
  { left. repeat split; reflexivity. }
  set (m1 := fast 1 32 (cmpb c) 1 32 comp _ _ _ _ a1 n (n / 32) m) in *. clearbody m1.
  destruct (loop_did 1 (cmpb c) a1 1 a2 1 a1 1 (n - n / 32 * 32) m1 (Ptr a1 1) (Ptr a2 1)) as [G1 G2]; try tauto; try lia.
  { split; [apply Sep|split; intros u v Hv Hu; lia]. }
  unfold generic. assert (Hi1 : m1 (a1 + i) = b2z (cmpb c x y)).
  { replace (a1 + i) with (a1 + i * 1) by lia. rewrite F1 by lia. rewrite !ld1. unfold x, y. rewrite !Z.mul_1_r. reflexivity. }
  destruct (Z.ltb_spec i (n mod 32)) as [Hlt|Hge].
  - replace (a1 + i) with (a1 + i * 1) at 1 by lia. rewrite G1 by lia. rewrite !ld1, !Z.mul_1_r, Hi1.
    unfold y. rewrite (F2 (a2 + i)); [reflexivity|]. intros j Hj. lia.
  - rewrite G2; [exact Hi1|]. intros j Hj. lia.
Qed.

Theorem C17_second_input_exact_partial : forall c a1 a2 n m, 0 <= n -> bytes_ok m ->
  (a1 + n <= a2 \/ a2 + n <= a1) ->
  let m' := GetComparisonOpFast c (I BOOL) a1 a2 a2 n 1 1 1 m in
  forall i, 0 <= i < n ->
    let x := m (a1 + i) in let y := m (a2 + i) in
    m' (a2 + i) = (if i <? n mod 32 then b2z (cmpb c x (b2z (cmpb c x y))) else b2z (cmpb c x y)).
Proof.
  intros c a1 a2 n m Hn Hm Hd m' i Hi x y. destruct (bool_shape c a1 a2 a2 n m) as (comp & p & L & P & E).
  unfold m'. rewrite E. unfold CompareShape. cbn [Z.eqb andb Pos.eqb].
  pose proof (Z.div_mod n 32 ltac:(lia)) as D. pose proof (Z.mod_pos_bound n 32 ltac:(lia)) as M.
  pose proof (Z.div_pos n 32 ltac:(lia) ltac:(lia)) as Q0.
  assert (Sep : forall k, separate a2 1 k) by (intros k u v Hu Hv Huv; unfold disj; lia).
  destruct (fast_did 1 32 32 1 32 comp p (cmpb c)) with (a1 := a1) (s1 := 1) (a2 := a2) (s2 := 1) (out := a2) (n := n) (m := m) (q := n / 32)
    (x := Ptr a1 1) (y := Ptr a2 1) (tx := fun _ : bytes => Ptr (a1 + 32 * 1 * (n / 32)) 1) (ty := fun _ : bytes => Ptr (a2 + 32 * 1 * (n / 32)) 1) as [F1 F2];
    try assumption; try reflexivity; try lia.
  { split; [apply Sep|split; intros u v Hv Hu; lia]. }
  { left. repeat split; reflexivity. }
  { left. repeat split; reflexivity. }
  set (m1 := fast 1 32 (cmpb c) 1 32 comp _ _ _ _ a2 n (n / 32) m) in *. clearbody m1.
  destruct (loop_did 1 (cmpb c) a1 1 a2 1 a2 1 (n - n / 32 * 32) m1 (Ptr a1 1) (Ptr a2 1)) as [G1 G2]; try tauto; try lia.
  { split; [apply Sep|split; intros u v Hv Hu; lia]. }
  unfold generic. assert (Hi1 : m1 (a2 + i) = b2z (cmpb c x y)).
  { replace (a2 + i) with (a2 + i * 1) by lia. rewrite F1 by lia. rewrite !ld1. unfold x, y. rewrite !Z.mul_1_r. reflexivity. }
  destruct (Z.ltb_spec i (n mod 32)) as [Hlt|Hge].
  - replace (a2 + i) with (a2 + i * 1) at 1 by lia. rewrite G1 by lia. rewrite !ld1, !Z.mul_1_r, Hi1.
    unfold x. rewrite (F2 (a1 + i)); [reflexivity|]. intros j Hj. lia.
  - rewrite G2; [exact Hi1|]. intros j Hj. lia.
Qed.

(** Consequences.  In place the answers are right for the comparisons that absorb a second application
    (> and >= into the first input, < and <= into the second) and for every multiple of 32 ... *)
Corollary C17_in_place_right_partial : forall c a1 a2 n m, 0 <= n -> bytes_ok m ->
  (a1 + n <= a2 \/ a2 + n <= a1) -> (n mod 32 = 0 \/ c = CMP_GT \/ c = CMP_GTE) ->
  forall i, 0 <= i < n ->
    GetComparisonOpFast c (I BOOL) a1 a2 a1 n 1 1 1 m (a1 + i) = b2z (cmpb c (m (a1 + i)) (m (a2 + i))).
Proof.
  intros c a1 a2 n m Hn Hm Hd Hc i Hi. rewrite C17_first_input_exact_partial by assumption.
  destruct (Z.ltb_spec i (n mod 32)) as [Hlt|]; [|reflexivity].
  destruct Hc as [Hc|[->| ->]]; [lia|..]; unfold cmpb, meant, b_gt, b_ge, tr;
    destruct (m (a1 + i) =? 0); destruct (m (a2 + i) =? 0); reflexivity.
Qed.

(** ... and for every other length, equal, not_equal, less and less_equal into the first input are wrong for some
    contents: the property fails. *)
Theorem C17_in_place_refuted : forall n, 0 < n -> n mod 32 <> 0 -> forall c,
  c = CMP_EQ \/ c = CMP_NE \/ c = CMP_LT \/ c = CMP_LTE ->
  exists m, bytes_ok m /\
    GetComparisonOpFast c (I BOOL) 0 n 0 n 1 1 1 m 0 <> b2z (cmpb c (m 0) (m n)).
Proof.
  intros n Hn Hm c Hc. pose proof (Z.mod_pos_bound n 32 ltac:(lia)) as M.
  assert (K : exists x y, (x = 0 \/ x = 1) /\ (y = 0 \/ y = 1) /\ b2z (cmpb c (b2z (cmpb c x y)) y) <> b2z (cmpb c x y)).
  { destruct Hc as [->|[->|[->| ->]]].
    - exists 0, 0. split; [auto|split; [auto|vm_compute; discriminate]].
    - exists 0, 1. split; [auto|split; [auto|vm_compute; discriminate]].
    - exists 0, 1. split; [auto|split; [auto|vm_compute; discriminate]].
    - exists 0, 0. split; [auto|split; [auto|vm_compute; discriminate]]. }
  destruct K as (x & y & Hx & Hy & K).
  set (m := fun a => if a =? 0 then x else if a =? n then y else 0).
  assert (M0 : m 0 = x) by reflexivity.
  assert (M1 : m n = y) by (unfold m; destruct (Z.eqb_spec n 0); [lia|now rewrite Z.eqb_refl]).
  exists m. split.
  - intros a. unfold m. destruct (a =? 0); [lia|]. destruct (a =? n); lia.
  - assert (Hbm : bytes_ok m) by (intros a; unfold m; destruct (a =? 0); [lia|]; destruct (a =? n); lia).
    pose proof (C17_first_input_exact_partial c 0 n n m ltac:(lia) Hbm ltac:(lia) 0 ltac:(lia)) as E.
    cbv zeta in E. rewrite Z.add_0_l, Z.add_0_r, M0, M1 in E. rewrite E, M0, M1.
    destruct (Z.ltb_spec 0 (n mod 32)); [exact K|lia].
Qed.
Print Assumptions C17_in_place_refuted.

(** ---------- C18 ---------- *)
(** the 64-bit pattern read as int64 / as uint64 *)
Definition as_signed (x : Z) : Z := if x <? 2 ^ 63 then x else x - 2 ^ 64.

Lemma hi_set_spec x y : 0 <= x < 2 ^ 64 -> 0 <= y < 2 ^ 64 -> hi_set x y = ((2 ^ 63 <=? x) || (2 ^ 63 <=? y)).
Proof.
  intros Hx Hy. unfold hi_set.
  assert (B : forall z, 0 <= z < 2 ^ 64 -> Z.testbit z 63 = (2 ^ 63 <=? z)).
  { intros z Hz. rewrite Z.testbit_odd, Z.shiftr_div_pow2 by lia.
    destruct (Z.leb_spec (2 ^ 63) z) as [H|H].
    - replace (z / 2 ^ 63) with 1; [reflexivity|]. apply Z.div_unique with (r := z - 2 ^ 63); lia.
    - rewrite Z.div_small by lia. reflexivity. }
  replace (Z.land (Z.lor x y) highbit) with (if Z.testbit (Z.lor x y) 63 then 2 ^ 63 else 0).
  - rewrite Z.lor_spec, !B by assumption. destruct ((2 ^ 63 <=? x) || (2 ^ 63 <=? y)); reflexivity.
  - change highbit with (2 ^ 63). apply Z.bits_inj'. intros k Hk. rewrite Z.land_spec, Z.pow2_bits_eqb by lia.
    destruct (Z.eqb_spec 63 k) as [<-|Hne].
    + destruct (Z.testbit (Z.lor x y) 63); reflexivity.
    + rewrite andb_false_r. destruct (Z.testbit (Z.lor x y) 63); [|apply Z.bits_0].
      rewrite Z.pow2_bits_eqb by lia. apply Z.eqb_neq. exact Hne.
Qed.

(** int64 (op) uint64: all six comparisons are the mathematical ones. *)
Theorem C18_signed_unsigned : forall c x y, 0 <= x < 2 ^ 64 -> 0 <= y < 2 ^ 64 ->
  (mixed_iu c x y = true <-> rel c (as_signed x) y).
Proof.
  intros c x y Hx Hy. pose proof (hi_set_spec x y Hx Hy) as E.
  change (2 ^ 63) with 9223372036854775808 in *. change (2 ^ 64) with 18446744073709551616 in *.
  unfold as_signed. destruct c; cbn [mixed_iu rel];
  unfold COMP_GT_INT64, COMP_GE_INT64, COMP_LT_INT64, COMP_LE_INT64, COMP_EQ_UINT64, COMP_NE_UINT64, s_eq, s_ne, s_gt, s_ge, s_lt, s_le, sval;
  rewrite E; change (2 ^ (64 - 1)) with 9223372036854775808; change (2 ^ 64) with 18446744073709551616; change (2 ^ 63) with 9223372036854775808;
  destruct (Z.leb_spec 9223372036854775808 x); destruct (Z.leb_spec 9223372036854775808 y); cbn [orb];
  destruct (Z.ltb_spec x 9223372036854775808); destruct (Z.ltb_spec y 9223372036854775808); try lia;
  (split; intros; (discriminate || lia || idtac)).
Qed.

(** uint64 (op) int64: the orderings are the mathematical ones; equal and not_equal are right exactly when the
    patterns are not equal with the top bit set. *)
Theorem C18_unsigned_signed_partial : forall c x y, 0 <= x < 2 ^ 64 -> 0 <= y < 2 ^ 64 ->
  ((c <> CMP_EQ /\ c <> CMP_NE) \/ ~ (x = y /\ 2 ^ 63 <= x)) ->
  (mixed_ui c x y = true <-> rel c x (as_signed y)).
Proof.
  intros c x y Hx Hy. pose proof (hi_set_spec x y Hx Hy) as E.
  change (2 ^ 63) with 9223372036854775808 in *. change (2 ^ 64) with 18446744073709551616 in *.
  intros Hc. unfold as_signed. destruct c; cbn [mixed_ui rel];
  unfold COMP_GT_UINT64, COMP_GE_UINT64, COMP_LT_UINT64, COMP_LE_UINT64, s_eq, s_ne, u_gt, u_ge, u_lt, u_le, sval;
  try rewrite E; change (2 ^ (64 - 1)) with 9223372036854775808; change (2 ^ 64) with 18446744073709551616; change (2 ^ 63) with 9223372036854775808;
  destruct (Z.leb_spec 9223372036854775808 x); destruct (Z.leb_spec 9223372036854775808 y); cbn [orb];
  destruct (Z.ltb_spec x 9223372036854775808); destruct (Z.ltb_spec y 9223372036854775808); try lia;
  (split; intros; (discriminate || lia || (destruct Hc as [[? ?]|?]; [congruence|lia]) || idtac)).
Qed.

Theorem C18_unsigned_signed_eq_refuted : forall x, 2 ^ 63 <= x < 2 ^ 64 ->
  mixed_ui CMP_EQ x x = true /\ x <> as_signed x /\ mixed_ui CMP_NE x x = false.
Proof.
  intros x Hx. cbn [mixed_ui]. unfold s_eq, s_ne. rewrite Z.eqb_refl. split; [reflexivity|]. split; [|reflexivity].
  unfold as_signed. destruct (Z.ltb_spec x (2 ^ 63)); lia.
Qed.

(** the loops that use them *)
Theorem C18_loop : forall cmp a1 a2 out n s1 s2 so m, 0 <= n ->
  cmp_operands 8 a1 s1 a2 s2 out so n ->
  did 8 cmp a1 s1 a2 s2 out so n m (CompareAny 8 cmp a1 a2 out n s1 s2 so m).
Proof. intros. apply any_did; try assumption. lia. Qed.
Example C18_nonvacuous : mixed_iu CMP_LT (2 ^ 64 - 1) 3 = true /\ mixed_iu CMP_GT 5 3 = true /\ mixed_ui CMP_GT (2 ^ 63) (2 ^ 64 - 1) = true.
Proof. vm_compute. auto. Qed.
Print Assumptions C18_signed_unsigned.
