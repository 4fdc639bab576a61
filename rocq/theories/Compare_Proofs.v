(** Compare_Proofs.v - lanes and loops of the comparison kernels. *)
From Verif Require Import Base Kernel_Model Kernel_Proofs Float_Model Compare_Model.

(** ---------- lanes ---------- *)
Definition map2b (p : Z -> Z -> bool) (x y : list Z) : list Z := lanes2 (fun a b => b2z (p a b)) x y.

Lemma sat16lo_mask b : sat16lo (mask8 b) (mask8 b) (mask8 b) (mask8 b) = mask8 b.
Proof. destruct b; reflexivity. Qed.
Lemma sat16hi_mask b : sat16hi (mask8 b) (mask8 b) (mask8 b) (mask8 b) = mask8 b.
Proof. destruct b; reflexivity. Qed.
Lemma sat8_mask b : sat8 (mask8 b) (mask8 b) = mask8 b.
Proof. destruct b; reflexivity. Qed.
Lemma sat8_half b : Z.land (sat8 (mask8 b) 0) 1 = b2z b.
Proof. destruct b; reflexivity. Qed.
Lemma land_mask b : Z.land (mask8 b) 1 = b2z b.
Proof. destruct b; reflexivity. Qed.
Lemma land_mask0 b : Z.land (mask8 b) 0 = 0.
Proof. destruct b; reflexivity. Qed.
Lemma xor_b b : Z.lxor (b2z b) 1 = b2z (negb b).
Proof. destruct b; reflexivity. Qed.
Lemma sat8_b b : sat8 (b2z b) 0 = b2z b.
Proof. destruct b; reflexivity. Qed.

(** every list of a given length is the list of its elements *)
Ltac spread x H :=
  repeat (match type of H with length ?l = S _ => let a := fresh "e" in destruct l as [|a ?]; [discriminate H|]; cbn [length] in H; apply Nat.succ_inj in H end);
  match type of H with length ?l = O => destruct l; [clear H|discriminate H] end.

Definition lanes_ok (nreg L : nat) (comp : list reg -> list reg -> list Z) (p : Z -> Z -> bool) : Prop :=
  forall xs ys, length xs = nreg -> length ys = nreg ->
    (forall r, In r xs -> length r = L) -> (forall r, In r ys -> length r = L) ->
    comp xs ys = map2b p (concat xs) (concat ys).

Lemma four_lanes L f p :
  (forall x1 y1 x2 y2 x3 y3 x4 y4, length x1 = L -> length y1 = L -> length x2 = L -> length y2 = L ->
     length x3 = L -> length y3 = L -> length x4 = L -> length y4 = L ->
     f x1 y1 x2 y2 x3 y3 x4 y4 = map2b p (x1 ++ x2 ++ x3 ++ x4) (y1 ++ y2 ++ y3 ++ y4)) ->
  lanes_ok 4 L (four f) p.
Proof.
  intros H xs ys Hx Hy Lx Ly.
  destruct xs as [|x1 [|x2 [|x3 [|x4 [|? ?]]]]]; try discriminate Hx.
  destruct ys as [|y1 [|y2 [|y3 [|y4 [|? ?]]]]]; try discriminate Hy.
  cbn [four concat]. rewrite !app_nil_r. apply H; first [solve [apply Lx; cbn; tauto]|solve [apply Ly; cbn; tauto]].
Qed.

Lemma one_lanes L f p :
  (forall x y, length x = L -> length y = L -> f x y = map2b p x y) -> lanes_ok 1 L (one f) p.
Proof.
  intros H xs ys Hx Hy Lx Ly.
  destruct xs as [|x [|? ?]]; try discriminate Hx.
  destruct ys as [|y [|? ?]]; try discriminate Hy.
  cbn [one concat]. rewrite !app_nil_r. apply H; first [solve [apply Lx; cbn; tauto]|solve [apply Ly; cbn; tauto]].
Qed.

Lemma lanes_ok_ext n L c p p' : (forall x y, p x y = p' x y) -> lanes_ok n L c p -> lanes_ok n L c p'.
Proof.
  intros E H xs ys H1 H2 H3 H4. rewrite H by assumption. unfold map2b.
  generalize (concat xs) (concat ys). induction l as [|a l IH]; intros [|b l']; cbn; [reflexivity..|]. now rewrite IH, E.
Qed.


Ltac crunch := cbv -[sat16lo sat16hi sat8 mask8 b2z Z.land Z.lor Z.lxor negb].
(** one output byte: only the answer of its own comparison matters *)
Ltac lane := match goal with |- context [?p ?a ?b] => match type of (p a b) with bool => destruct (p a b); reflexivity end end.
Ltac lanes := repeat (apply f_equal2; [lane|]); try reflexivity.

Lemma EQS_lanes : lanes_ok 4 8 (four COMP32i_EQS) Z.eqb.
Proof.
  apply four_lanes. intros x1 y1 x2 y2 x3 y3 x4 y4 H1 H2 H3 H4 H5 H6 H7 H8. unfold COMP32i_EQS, cmpeq.
  generalize Z.eqb as p. intros p.
  spread x1 H1. spread y1 H2. spread x2 H3. spread y2 H4. spread x3 H5. spread y3 H6. spread x4 H7. spread y4 H8.
  crunch. lanes.
Qed.

Lemma float_lanes p : lanes_ok 4 8 (four (float_round p)) p.
Proof.
  apply four_lanes. intros x1 y1 x2 y2 x3 y3 x4 y4 H1 H2 H3 H4 H5 H6 H7 H8. unfold float_round.
  spread x1 H1. spread y1 H2. spread x2 H3. spread y2 H4. spread x3 H5. spread y3 H6. spread x4 H7. spread y4 H8.
  crunch. lanes.
Qed.

Lemma double_lanes p : lanes_ok 4 2 (four (double_round p)) p.
Proof.
  apply four_lanes. intros x1 y1 x2 y2 x3 y3 x4 y4 H1 H2 H3 H4 H5 H6 H7 H8. unfold double_round.
  spread x1 H1. spread y1 H2. spread x2 H3. spread y2 H4. spread x3 H5. spread y3 H6. spread x4 H7. spread y4 H8.
  crunch. lanes.
Qed.

Lemma comp64_lanes p flip :
  lanes_ok 4 4 (four (COMP64i (cmp_lanes 8 p) flip)) (fun x y => xorb flip (p x y)).
Proof.
  apply four_lanes. intros x1 y1 x2 y2 x3 y3 x4 y4 H1 H2 H3 H4 H5 H6 H7 H8. unfold COMP64i.
  spread x1 H1. spread y1 H2. spread x2 H3. spread y2 H4. spread x3 H5. spread y3 H6. spread x4 H7. spread y4 H8.
  destruct flip; crunch; lanes.
Qed.

Lemma map2b_swap p x : forall y, map2b p y x = map2b (fun a b => p b a) x y.
Proof. unfold map2b. induction x as [|a x IH]; intros [|b y]; cbn; [reflexivity..|]. now rewrite IH. Qed.

Lemma comp64_lanes_swap p flip :
  lanes_ok 4 4 (four (fun y1 x1 y2 x2 y3 x3 y4 x4 => COMP64i (cmp_lanes 8 p) flip x1 y1 x2 y2 x3 y3 x4 y4))
    (fun x y => xorb flip (p y x)).
Proof.
  intros xs ys H1 H2 H3 H4.
  pose proof (comp64_lanes p flip ys xs H2 H1 H4 H3) as E. rewrite map2b_swap in E. rewrite <- E.
  destruct xs as [|x1 [|x2 [|x3 [|x4 [|? ?]]]]]; try discriminate H1.
  destruct ys as [|y1 [|y2 [|y3 [|y4 [|? ?]]]]]; try discriminate H2. reflexivity.
Qed.

(** ---------- the expansion tables ---------- *)
Lemma all_in (P : Z -> bool) a b : forallb P (zrange a b) = true -> forall i, a <= i < b -> P i = true.
Proof. intros H i Hi. rewrite forallb_forall in H. apply H, zrange_In, Hi. Qed.

Definition list_eqb (x y : list Z) : bool := if list_eq_dec Z.eq_dec x y then true else false.
Lemma lut64_bytes i : 0 <= i < 256 -> word_bytes 8 (gBooleanLUT64 i) = map (fun j => b2z (Z.testbit i (Z.of_nat j))) (seq 0 8).
Proof.
  intros Hi. pose proof (all_in (fun i => list_eqb (word_bytes 8 (gBooleanLUT64 i)) (map (fun j => b2z (Z.testbit i (Z.of_nat j))) (seq 0 8))) 0 256 ltac:(vm_compute; reflexivity) i Hi) as E.
  unfold list_eqb in E. cbv beta in E. now destruct (list_eq_dec _ _ _).
Qed.
Lemma lut64inv_bytes i : 0 <= i < 256 -> word_bytes 8 (gBooleanLUT64Inverse i) = map (fun j => b2z (negb (Z.testbit i (Z.of_nat j)))) (seq 0 8).
Proof.
  intros Hi. pose proof (all_in (fun i => list_eqb (word_bytes 8 (gBooleanLUT64Inverse i)) (map (fun j => b2z (negb (Z.testbit i (Z.of_nat j)))) (seq 0 8))) 0 256 ltac:(vm_compute; reflexivity) i Hi) as E.
  unfold list_eqb in E. cbv beta in E. now destruct (list_eq_dec _ _ _).
Qed.

Lemma testbit_cons (b : bool) z j : 0 <= j -> Z.testbit ((if b then 1 else 0) + 2 * z) (j + 1) = Z.testbit z j.
Proof.
  intros Hj. replace (j + 1) with (Z.succ j) by lia. destruct b.
  - rewrite (Z.add_comm 1). rewrite Z.testbit_odd_succ by lia. reflexivity.
  - rewrite Z.add_0_l. apply Z.testbit_even_succ. exact Hj.
Qed.
Lemma testbit_cons0 (b : bool) z : Z.testbit ((if b then 1 else 0) + 2 * z) 0 = b.
Proof. destruct b; [rewrite (Z.add_comm 1); apply Z.testbit_odd_0|rewrite Z.add_0_l; apply Z.testbit_even_0]. Qed.

Lemma movemask_range p : forall x y, 0 <= movemask_ps (cmp_lanes 4 p x y) < 2 ^ Z.of_nat (length x).
Proof.
  induction x as [|a x IH]; intros [|b y]; cbn [cmp_lanes movemask_ps repeat app length]; try (split; [lia|apply Z.pow_pos_nonneg; lia]).
  specialize (IH y). rewrite Nat2Z.inj_succ, Z.pow_succ_r by lia. destruct (128 <=? mask8 (p a b)); lia.
Qed.
Lemma movemask_bits p : forall x y, length x = length y ->
  map (fun j => b2z (Z.testbit (movemask_ps (cmp_lanes 4 p x y)) (Z.of_nat j))) (seq 0 (length x)) = map2b p x y
  /\ map (fun j => b2z (negb (Z.testbit (movemask_ps (cmp_lanes 4 p x y)) (Z.of_nat j)))) (seq 0 (length x)) = map2b (fun a b => negb (p a b)) x y.
Proof.
  induction x as [|a x IH]; intros [|b y] H; try discriminate H; [split; reflexivity|].
  cbn [cmp_lanes movemask_ps repeat app length seq map map2b lanes2]. cbn [length] in H. apply Nat.succ_inj in H.
  destruct (IH y H) as [E1 E2].
  assert (T : (128 <=? mask8 (p a b)) = p a b) by (destruct (p a b); reflexivity). rewrite T.
  split; f_equal; rewrite ?Nat2Z.inj_0, ?testbit_cons0; try reflexivity.
  - rewrite <- seq_shift, map_map. etransitivity; [|exact E1]. apply map_ext. intros j.
    rewrite Nat2Z.inj_succ. unfold Z.succ. rewrite testbit_cons by lia. reflexivity.
  - rewrite <- seq_shift, map_map. etransitivity; [|exact E2]. apply map_ext. intros j.
    rewrite Nat2Z.inj_succ. unfold Z.succ. rewrite testbit_cons by lia. reflexivity.
Qed.

Lemma movemask_and p x y : length x = 8%nat ->
  Z.land (movemask_ps (cmp_lanes 4 p x y)) 255 = movemask_ps (cmp_lanes 4 p x y) /\ 0 <= movemask_ps (cmp_lanes 4 p x y) < 256.
Proof.
  intros H. pose proof (movemask_range p x y) as R. rewrite H in R. change (2 ^ Z.of_nat 8) with 256 in R.
  split; [|exact R]. change 255 with (Z.ones 8). rewrite Z.land_ones by lia. apply Z.mod_small. exact R.
Qed.

Lemma comp32_lanes p : lanes_ok 1 8 (one (fun x y => word_bytes 8 (gBooleanLUT64 (Z.land (movemask_ps (cmp_lanes 4 p x y)) 255)))) p.
Proof.
  apply one_lanes. intros x y Hx Hy. destruct (movemask_and p x y Hx) as [E R]. rewrite E, lut64_bytes by exact R.
  rewrite <- Hx. apply movemask_bits. now rewrite Hx.
Qed.
Lemma comp32_lanes_inv p : lanes_ok 1 8 (one (fun x y => word_bytes 8 (gBooleanLUT64Inverse (Z.land (movemask_ps (cmp_lanes 4 p x y)) 255)))) (fun x y => negb (p x y)).
Proof.
  apply one_lanes. intros x y Hx Hy. destruct (movemask_and p x y Hx) as [E R]. rewrite E, lut64inv_bytes by exact R.
  rewrite <- Hx. apply movemask_bits. now rewrite Hx.
Qed.

Lemma one_swap L f p : lanes_ok 1 L (one f) p -> lanes_ok 1 L (one (fun x y => f y x)) (fun x y => p y x).
Proof.
  intros H xs ys H1 H2 H3 H4. rewrite <- map2b_swap, <- (H ys xs) by assumption.
  destruct xs as [|x [|? ?]]; try discriminate H1. destruct ys as [|y [|? ?]]; try discriminate H2. reflexivity.
Qed.

(** 8- and 16-bit *)
Lemma comp8_lanes p : lanes_ok 1 32 (one (fun x y => vand (cmp_lanes 1 p x y) g_ones)) p.
Proof. apply one_lanes. intros x y H1 H2. spread x H1. spread y H2. crunch. lanes. Qed.
Lemma comp8_lanes_inv p : lanes_ok 1 32 (one (fun x y => vxor (vand (cmp_lanes 1 p x y) g_ones) g_ones)) (fun x y => negb (p x y)).
Proof. apply one_lanes. intros x y H1 H2. spread x H1. spread y H2. crunch. lanes. Qed.
Lemma comp16_lanes p : lanes_ok 1 16 (one (fun x y => COMP16i_pack (vand (cmp_lanes 2 p x y) mask16))) p.
Proof. apply one_lanes. intros x y H1 H2. spread x H1. spread y H2. crunch. lanes. Qed.
Lemma comp16_lanes_inv p : lanes_ok 1 16 (one (fun x y => COMP16i_pack (vxor (vand (cmp_lanes 2 p x y) mask16) mask16))) (fun x y => negb (p x y)).
Proof. apply one_lanes. intros x y H1 H2. spread x H1. spread y H2. crunch. lanes. Qed.

(** booleans: clamp to 0/1 first *)
Lemma clamp_lanes p x y : length x = 32%nat -> length y = 32%nat ->
  map2b p (min_epu8 x g_ones) (min_epu8 y g_ones) = map2b (fun a b => p (Z.min a 1) (Z.min b 1)) x y.
Proof.
  intros Hx Hy. assert (M : forall l, length l = 32%nat -> min_epu8 l g_ones = map (fun a => Z.min a 1) l).
  { intros l H. spread l H. reflexivity. }
  rewrite !M by assumption. clear. unfold map2b. revert y. induction x as [|a x IH]; intros [|b y]; cbn; [reflexivity..|]. now rewrite IH.
Qed.
Lemma min_len x : length x = 32%nat -> length (min_epu8 x g_ones) = 32%nat.
Proof. intros H. spread x H. reflexivity. Qed.
Lemma compB_lanes f p : lanes_ok 1 32 (one f) p ->
  lanes_ok 1 32 (one (fun x y => f (min_epu8 x g_ones) (min_epu8 y g_ones))) (fun a b => p (Z.min a 1) (Z.min b 1)).
Proof.
  intros H. apply one_lanes. intros x y Hx Hy. rewrite <- clamp_lanes by assumption.
  specialize (H [min_epu8 x g_ones] [min_epu8 y g_ones] eq_refl eq_refl). cbn [one concat] in H. rewrite !app_nil_r in H.
  apply H; intros r [<-|[]]; apply min_len; assumption.
Qed.

(** ---------- loops ---------- *)
(** no output byte written earlier lies in an input read later *)
Definition no_clobber2 (sz a s out so n : Z) : Prop :=
  forall i j, 0 <= j < i -> i < n -> ~ (a + i * s <= out + j * so < a + i * s + sz).
Definition separate (out so n : Z) : Prop := outs_separate 1 out so n.

Lemma upto1_read sz out so F n k m0 m a s i : 0 <= sz -> no_clobber2 sz a s out so n -> 0 <= k <= i -> i < n ->
  upto 1 out so F k m0 m -> ld sz m (a + i * s) = ld sz m0 (a + i * s).
Proof.
  intros Hs Hc Hk Hi [_ U2]. apply ld_ext; [exact Hs|]. intros x Hx. apply U2.
  intros j Hj. specialize (Hc i j ltac:(lia) Hi). lia.
Qed.

Definition gives (sz out so n : Z) (F : Z -> Z) (m0 : bytes) (o : opd) (base : Z) (v : Z -> Z) : Prop :=
  forall k i m, 0 <= k <= i -> i < n -> base <= i -> upto 1 out so F k m0 m -> rd sz m o (i - base) = v i.

Lemma gives_ptr sz out so n F m0 a s base : 0 <= sz -> no_clobber2 sz a s out so n ->
  gives sz out so n F m0 (Ptr (a + base * s) s) base (fun i => ld sz m0 (a + i * s)).
Proof.
  intros Hs Hc k i m Hk Hi Hb U. cbn [rd].
  replace (a + base * s + (i - base) * s) with (a + i * s) by ring.
  eapply upto1_read; eauto.
Qed.
Lemma gives_val sz out so n F m0 base v a : (v = ld sz m0 a) -> gives sz out so n F m0 (Val v) base (fun i => ld sz m0 (a + i * 0)).
Proof. intros -> k i m _ _ _ _. cbn. f_equal. lia. Qed.

Lemma pat_b2z b : pat 1 (b2z b).
Proof. unfold pat. destruct b; cbn; lia. Qed.

Lemma cmp_loop_upto sz cmp out so n F m0 x y vx vy base cnt m :
  separate out so n -> 0 <= base -> 0 <= cnt -> base + cnt <= n ->
  (0 < cnt -> gives sz out so n F m0 x base vx) -> (0 < cnt -> gives sz out so n F m0 y base vy) ->
  (forall i, 0 <= i < n -> F i = b2z (cmp (vx i) (vy i))) ->
  upto 1 out so F base m0 m ->
  upto 1 out so F (base + cnt) m0 (cmp_loop sz cmp x y (out + base * so) so cnt m).
Proof.
  intros Ho Hb Hc Hle Dx Dy HF U. unfold cmp_loop.
  apply (zrange_app_ind (fun k m' => upto 1 out so F (base + k) m0 m')); [exact Hc| |].
  - rewrite Z.add_0_r. exact U.
  - intros k m' Hk U'.
    pose proof (Dx ltac:(lia) (base + k) (base + k) m' ltac:(lia) ltac:(lia) ltac:(lia) U') as Ex.
    pose proof (Dy ltac:(lia) (base + k) (base + k) m' ltac:(lia) ltac:(lia) ltac:(lia) U') as Ey.
    replace (base + k - base) with k in Ex, Ey by lia.
    rewrite Ex, Ey, <- HF by lia.
    replace (out + base * so + k * so) with (out + (base + k) * so) by ring.
    replace (base + (k + 1)) with (base + k + 1) by lia.
    eapply upto_step; try exact U'; try exact Ho; try lia. rewrite HF by lia. apply pat_b2z.
Qed.

Lemma concat_blocks (g : Z -> Z) L : 0 <= L -> forall nr, 0 <= nr ->
  concat (map (fun r => map (fun l => g (r * L + l)) (zrange 0 L)) (zrange 0 nr)) = map g (zrange 0 (nr * L)).
Proof.
  intros HL. apply natlike_ind.
  - reflexivity.
  - intros x Hx IH. unfold Z.succ. rewrite zrange_snoc by lia. rewrite map_app, concat_app, IH. cbn [map concat]. rewrite app_nil_r.
    rewrite (zrange_split 0 (x * L) ((x + 1) * L)) by nia. rewrite map_app. f_equal.
    unfold zrange. replace ((x + 1) * L - x * L) with L by ring. rewrite Z.sub_0_r.
    symmetry. apply map_zseq_shift.
Qed.

Section Rounds.
  Variables (sz B L nreg W : Z) (comp : list reg -> list reg -> list Z) (p cmp : Z -> Z -> bool).
  Hypothesis Hsz : 0 < sz.
  Hypothesis HL : 0 < L.
  Hypothesis HBL : B / sz = L.
  Hypothesis HB : B = L * sz.
  Hypothesis Hnr : 0 < nreg.
  Hypothesis HW : W = nreg * L.
  Hypothesis Hcomp : lanes_ok (Z.to_nat nreg) (Z.to_nat L) comp p.
  Hypothesis Hp : forall x y, pat sz x -> pat sz y -> p x y = cmp x y.

  Lemma rdr_rd m o k : (forall q s, o = Ptr q s -> s = sz) ->
    rdr sz B m o k = map (fun l => rd sz m o (k * L + l)) (zrange 0 L).
  Proof.
    intros Hs. destruct o as [q s|v]; cbn [rdr rd].
    - rewrite (Hs q s eq_refl), HBL. apply map_ext. intros l. f_equal. rewrite HB. ring.
    - now rewrite HBL.
  Qed.

  Lemma regs_concat m o k : (forall q s, o = Ptr q s -> s = sz) ->
    concat (regs sz B nreg m o k) = map (fun l => rd sz m o (W * k + l)) (zrange 0 W).
  Proof.
    intros Hs. unfold regs.
    rewrite (map_ext (fun r => rdr sz B m o (nreg * k + r)) (fun r => map (fun l => rd sz m o (W * k + (r * L + l))) (zrange 0 L))).
    - rewrite (concat_blocks (fun j => rd sz m o (W * k + j)) L) by lia. now rewrite <- HW.
    - intros r. rewrite rdr_rd by exact Hs. apply map_ext. intros l. f_equal. rewrite HW. ring.
  Qed.

  Lemma regs_len m o k : (forall q s, o = Ptr q s -> s = sz) ->
    length (regs sz B nreg m o k) = Z.to_nat nreg /\ forall r, In r (regs sz B nreg m o k) -> length r = Z.to_nat L.
  Proof.
    intros Hs. split.
    - unfold regs. rewrite map_length, zrange_length. f_equal. lia.
    - intros r Hr. unfold regs in Hr. apply in_map_iff in Hr. destruct Hr as (j & <- & _).
      rewrite rdr_rd by exact Hs. rewrite map_length, zrange_length. f_equal. lia.
  Qed.

  Lemma round_loop_upto out n F m0 x y vx vy q :
    separate out 1 n -> 0 <= q -> q * W <= n ->
    (forall a s, x = Ptr a s -> s = sz) -> (forall a s, y = Ptr a s -> s = sz) ->
    gives sz out 1 n F m0 x 0 vx -> gives sz out 1 n F m0 y 0 vy ->
    (forall i, 0 <= i < n -> pat sz (vx i)) -> (forall i, 0 <= i < n -> pat sz (vy i)) ->
    (forall i, 0 <= i < n -> F i = b2z (cmp (vx i) (vy i))) ->
    upto 1 out 1 F (q * W) m0 (round_loop sz B nreg W comp x y out q m0).
  Proof.
    intros Ho Hq Hle Sx Sy Dx Dy Px Py HF. unfold round_loop.
    apply (zrange_app_ind (fun k m' => upto 1 out 1 F (k * W) m0 m')); [exact Hq|apply upto_0|].
    intros k m' Hk U.
    assert (HkW : 0 <= k * W /\ (k + 1) * W <= q * W) by nia.
    rewrite Hcomp by (apply regs_len; assumption).
    rewrite !regs_concat by assumption. unfold map2b. rewrite lanes2_map.
    replace (map (fun i => b2z (p (rd sz m' x (W * k + i)) (rd sz m' y (W * k + i)))) (zrange 0 W)) with (map F (zseq (k * W) (Z.to_nat W))).
    2:{ rewrite map_zseq_shift. unfold zrange. rewrite Z.sub_0_r. apply map_ext_in. intros l Hl. apply zseq_In in Hl.
        assert (HW0 : 0 < W) by nia.
        pose proof (Dx (k * W) (k * W + l) m' ltac:(lia) ltac:(lia) ltac:(lia) U) as Ex.
        pose proof (Dy (k * W) (k * W + l) m' ltac:(lia) ltac:(lia) ltac:(lia) U) as Ey.
        rewrite Z.sub_0_r in Ex, Ey. replace (W * k + l) with (k * W + l) by ring. rewrite Ex, Ey.
        rewrite Hp by (first [apply Px|apply Py]; lia). apply HF. lia. }
    replace (out + W * k) with (out + (k * W) * 1) by ring.
    replace ((k + 1) * W) with (k * W + Z.of_nat (Z.to_nat W)) by nia.
    apply (storev_upto 1 out F n m0); try exact Ho; try lia; try exact U; try nia.
    intros i Hi. rewrite HF by exact Hi. apply pat_b2z.
  Qed.

  Lemma fast_upto out n F m0 vx vy q x y tx ty :
    separate out 1 n -> 0 <= q -> q * W <= n ->
    (forall a s, x = Ptr a s -> s = sz) -> (forall a s, y = Ptr a s -> s = sz) ->
    gives sz out 1 n F m0 x 0 vx -> gives sz out 1 n F m0 y 0 vy ->
    (forall m1, q * W < n -> upto 1 out 1 F (q * W) m0 m1 -> gives sz out 1 n F m0 (tx m1) (q * W) vx) ->
    (forall m1, q * W < n -> upto 1 out 1 F (q * W) m0 m1 -> gives sz out 1 n F m0 (ty m1) (q * W) vy) ->
    (forall i, 0 <= i < n -> pat sz (vx i)) -> (forall i, 0 <= i < n -> pat sz (vy i)) ->
    (forall i, 0 <= i < n -> F i = b2z (cmp (vx i) (vy i))) ->
    upto 1 out 1 F n m0 (fast sz B cmp nreg W comp x y tx ty out n q m0).
  Proof.
    intros Ho Hq Hle Sx Sy Dx Dy Tx Ty Px Py HF. unfold fast.
    pose proof (round_loop_upto out n F m0 x y vx vy q Ho Hq Hle Sx Sy Dx Dy Px Py HF) as U.
    set (m1 := round_loop sz B nreg W comp x y out q m0) in *. clearbody m1.
    replace (out + W * q) with (out + (q * W) * 1) by ring.
    replace n with (q * W + (n - q * W)) at 1 by lia.
    assert (0 <= q * W) by nia.
    apply (cmp_loop_upto sz cmp out 1 n F m0) with (vx := vx) (vy := vy); try assumption; try lia.
    - intros Hc. apply Tx; [lia|exact U].
    - intros Hc. apply Ty; [lia|exact U].
  Qed.
End Rounds.
