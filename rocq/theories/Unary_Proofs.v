(** Unary_Proofs.v - lanes and loops of the unary kernels. *)
From Verif Require Import Base Kernel_Model Kernel_Proofs Kernel_Props Float_Model Compare_Model Compare_Proofs Compare_Props Unary_Model.

(** ---------- lanes ---------- *)
Lemma movemask_pd_range p : forall x y, 0 <= movemask_pd (cmp_lanes 8 p x y) < 2 ^ Z.of_nat (length x).
Proof.
  induction x as [|a x IH]; intros [|b y]; cbn [cmp_lanes movemask_pd repeat app length]; try (split; [lia|apply Z.pow_pos_nonneg; lia]).
  specialize (IH y). rewrite Nat2Z.inj_succ, Z.pow_succ_r by lia. destruct (128 <=? mask8 (p a b)); lia.
Qed.
Lemma movemask_pd_bits p : forall x y, length x = length y ->
  map (fun j => b2z (Z.testbit (movemask_pd (cmp_lanes 8 p x y)) (Z.of_nat j))) (seq 0 (length x)) = map2b p x y.
Proof.
  induction x as [|a x IH]; intros [|b y] H; try discriminate H; [reflexivity|].
  cbn [cmp_lanes movemask_pd repeat app length seq map map2b lanes2]. cbn [length] in H. apply Nat.succ_inj in H.
  pose proof (IH y H) as E1.
  assert (T : (128 <=? mask8 (p a b)) = p a b) by (destruct (p a b); reflexivity). rewrite T.
  f_equal; rewrite ?Nat2Z.inj_0, ?testbit_cons0; try reflexivity.
  rewrite <- seq_shift, map_map. etransitivity; [|exact E1]. apply map_ext. intros j.
  rewrite Nat2Z.inj_succ. unfold Z.succ. rewrite testbit_cons by lia. reflexivity.
Qed.
Lemma lut32_bytes i : 0 <= i < 16 -> word_bytes 4 (gBooleanLUT32 i) = map (fun j => b2z (Z.testbit i (Z.of_nat j))) (seq 0 4).
Proof.
  intros Hi. pose proof (all_in (fun i => list_eqb (word_bytes 4 (gBooleanLUT32 i)) (map (fun j => b2z (Z.testbit i (Z.of_nat j))) (seq 0 4))) 0 16 ltac:(vm_compute; reflexivity) i Hi) as E.
  unfold list_eqb in E. cbv beta in E. now destruct (list_eq_dec _ _ _).
Qed.
Lemma lut8_lanes p x y : length x = 8%nat -> length y = 8%nat -> lut8 (movemask_ps (cmp_lanes 4 p x y)) = map2b p x y.
Proof.
  intros Hx Hy. unfold lut8. destruct (movemask_and p x y Hx) as [E R]. rewrite E, lut64_bytes by exact R.
  rewrite <- Hx. apply movemask_bits. now rewrite Hx.
Qed.
Lemma lut4_lanes p x y : length x = 4%nat -> length y = 4%nat -> lut4 (movemask_pd (cmp_lanes 8 p x y)) = map2b p x y.
Proof.
  intros Hx Hy. unfold lut4. pose proof (movemask_pd_range p x y) as R. rewrite Hx in R. change (2 ^ Z.of_nat 4) with 16 in R.
  change 15 with (Z.ones 4). rewrite Z.land_ones by lia. rewrite Z.mod_small by exact R. rewrite lut32_bytes by exact R.
  pose proof (movemask_pd_bits p x y ltac:(now rewrite Hx)) as M. rewrite Hx in M. exact M.
Qed.

Definition map1b (p : Z -> bool) (x : list Z) : list Z := map (fun a => b2z (p a)) x.
Lemma map2b_self p x : map2b p x x = map1b (fun a => p a a) x.
Proof. unfold map2b, map1b. induction x as [|a x IH]; cbn; [reflexivity|]. now rewrite IH. Qed.
Lemma map2b_masks p c x : map2b p (set1 c x) (and_mask c x) = map1b (fun a => p c (Z.land a c)) x.
Proof. unfold map2b, map1b, set1, and_mask. induction x as [|a x IH]; cbn; [reflexivity|]. now rewrite IH. Qed.
Lemma inf_mask_lanes k f x : inf_mask k f x = cmp_lanes k (fun a _ => f_eq f a (pos_inf f) || f_eq f a (neg_inf f)) x x.
Proof.
  unfold inf_mask, vor, set1. generalize (pos_inf f) (neg_inf f). intros c d.
  induction x as [|a x IH]; [reflexivity|]. cbn [map cmp_lanes].
  rewrite <- IH. clear IH.
  generalize (cmp_lanes k (f_eq f) x (map (fun _ => c) x)) (cmp_lanes k (f_eq f) x (map (fun _ => d) x)). intros u v.
  assert (M : Z.lor (mask8 (f_eq f a c)) (mask8 (f_eq f a d)) = mask8 (f_eq f a c || f_eq f a d)) by (destruct (f_eq f a c), (f_eq f a d); reflexivity).
  induction k as [|k IHk]; [reflexivity|]. cbn [repeat app lanes2]. now rewrite IHk, M.
Qed.

(** a unary round gives, byte by byte, the predicate *)
Definition ulanes_ok (nreg L : nat) (comp : list reg -> list Z) (p : Z -> bool) : Prop :=
  forall xs, length xs = nreg -> (forall r, In r xs -> length r = L) -> comp xs = map1b p (concat xs).
Lemma uone_ok L g p : (forall x, length x = L -> g x = map1b p x) -> ulanes_ok 1 L (uone g) p.
Proof.
  intros H xs Hx Lx. destruct xs as [|x [|? ?]]; try discriminate Hx. cbn [uone concat]. rewrite app_nil_r. apply H, Lx. now left.
Qed.
Lemma ufour_ok L f p :
  lanes_ok 4 L (four f) p -> ulanes_ok 4 L (ufour (fun x1 x2 x3 x4 => f x1 x1 x2 x2 x3 x3 x4 x4)) (fun a => p a a).
Proof.
  intros H xs Hx Lx. rewrite <- map2b_self, <- (H xs xs) by assumption.
  destruct xs as [|x1 [|x2 [|x3 [|x4 [|? ?]]]]]; try discriminate Hx. reflexivity.
Qed.
Lemma inf_round_ok : ulanes_ok 4 8 (ufour inf_round) (fun a => f_eq FLT a (pos_inf FLT) || f_eq FLT a (neg_inf FLT)).
Proof.
  assert (E : forall x1 x2 x3 x4, inf_round x1 x2 x3 x4 = float_round (fun a _ => f_eq FLT a (pos_inf FLT) || f_eq FLT a (neg_inf FLT)) x1 x1 x2 x2 x3 x3 x4 x4).
  { intros. unfold inf_round, float_round. now rewrite !inf_mask_lanes. }
  intros xs Hx Lx.
  pose proof (ufour_ok 8 _ _ (float_lanes (fun a _ => f_eq FLT a (pos_inf FLT) || f_eq FLT a (neg_inf FLT))) xs Hx Lx) as F.
  cbv beta in F. rewrite <- F. clear F.
  destruct xs as [|x1 [|x2 [|x3 [|x4 [|? ?]]]]]; try discriminate Hx. cbn [ufour]. apply E.
Qed.

(** ---------- loops ---------- *)
(** what a boolean-valued unary loop did *)
Definition udid (sz : Z) (p : Z -> bool) (a s out so n : Z) (m m' : bytes) : Prop :=
  (forall i, 0 <= i < n -> m' (out + i * so) = b2z (p (ld sz m (a + i * s)))) /\
  (forall b, (forall i, 0 <= i < n -> b <> out + i * so) -> m' b = m b).
Definition uoperands (sz a s out so n : Z) : Prop := separate out so n /\ no_clobber2 sz a s out so n.

Lemma slow_bool_did sz p a s out so n m : 0 <= sz -> 0 <= n -> so <> 0 -> uoperands sz a s out so n ->
  udid sz p a s out so n m (slow_bool sz p a out n s so m).
Proof.
  intros Hs Hn Hso [Ho Hc].
  pose proof (loop_did sz (fun x _ => p x) a s a s out so n m (Ptr a s) (Ptr a s) Hs Hn ltac:(repeat split; assumption) ltac:(now left) ltac:(now left)) as D.
  unfold slow_bool, slow, while_rounds. destruct (Z.eqb_spec so 0) as [|_]; [contradiction|]. exact D.
Qed.

Section VR.
  Variables (sz B L nreg W : Z) (comp : list reg -> list Z) (p op : Z -> bool).
  Hypothesis Hsz : 0 < sz.
  Hypothesis HL : 0 < L.
  Hypothesis HBL : B / sz = L.
  Hypothesis HB : B = L * sz.
  Hypothesis Hnr : 0 < nreg.
  Hypothesis HW : W = nreg * L.
  Hypothesis Hcomp : ulanes_ok (Z.to_nat nreg) (Z.to_nat L) comp p.
  Hypothesis Hp : forall x, pat sz x -> p x = op x.

  Lemma vrounds_did a out n m : 0 <= n -> bytes_ok m -> uoperands sz a sz out 1 n ->
    udid sz op a sz out 1 n m
      (fold_left (fun m i => st 1 m (out + W * (n / W) + i) (b2z (op (ld sz m (a + B * nreg * (n / W) + i * sz)))))
        (zrange 0 (n - W * (n / W))) (vrounds sz B nreg W comp a out (n / W) m)).
  Proof.
    intros Hn Hm [Ho Hc]. assert (HW0 : 0 < W) by nia.
    assert (Hq : 0 <= n / W) by (apply Z.div_pos; lia).
    assert (Hle : (n / W) * W <= n) by (rewrite Z.mul_comm; apply Z.mul_div_le; lia).
    assert (Hc2 : lanes_ok (Z.to_nat nreg) (Z.to_nat L) (fun xs _ => comp xs) (fun x _ => p x)).
    { intros xs ys H1 H2 H3 H4. rewrite Hcomp by assumption. unfold map1b, map2b.
      assert (Hlen : length (concat xs) = length (concat ys)).
      { revert ys H2 H4. clear - H1 H3. revert H1 H3. generalize (Z.to_nat nreg). induction xs as [|x xs IH]; intros k H1 H3 [|y ys] H2 H4; cbn in *; try lia.
        rewrite !app_length, (H3 x), (H4 y) by tauto. f_equal. apply (IH (pred k)); try lia; intros r Hr; [apply H3|apply H4]; tauto. }
      revert Hlen. generalize (concat xs) (concat ys). intros l. clear - Hsz. induction l as [|u l IH]; intros [|v l'] Hl; cbn in *; try discriminate; [reflexivity|].
      rewrite (IH l') by lia. reflexivity. }
    pose proof (fast_did sz B L nreg W (fun xs _ => comp xs) (fun x _ => p x) (fun x _ => op x) Hsz HL HBL HB Hnr HW Hc2
      (fun x y Hx _ => Hp x Hx) a sz a sz out n m (n / W) (Ptr a sz) (Ptr a sz) (fun _ => Ptr (a + B * nreg * (n / W)) sz)
      (fun _ => Ptr (a + B * nreg * (n / W)) sz) Hn Hm Hq Hle ltac:(repeat split; assumption)
      ltac:(left; repeat split; reflexivity) ltac:(left; repeat split; reflexivity)) as D.
    unfold fast, cmp_loop in D. unfold udid, did in *.
    rewrite (Z.mul_comm W (n / W)) in *.
    erewrite (fold_ext (fun m i => st 1 m (out + n / W * W + i) _)); [exact D|].
    intros m' i. cbv beta. cbn [rd]. now rewrite Z.mul_1_r.
  Qed.
End VR.

(** the table-driven shape *)
Lemma lut_did sz L g p op a s out so n m : 0 < sz -> 0 < L -> 32 / sz = L -> 32 = L * sz ->
  (forall x, length x = Z.to_nat L -> g x = map1b p x) -> (forall x, pat sz x -> p x = op x) ->
  0 <= n -> so <> 0 -> bytes_ok m -> uoperands sz a s out so n ->
  udid sz op a s out so n m (UnaryLut sz L g op a out n s so m).
Proof.
  intros Hsz HL H1 H2 Hg Hp Hn Hso Hm Hop. unfold UnaryLut.
  destruct ((1 =? so) && (sz =? s) && (L <=? n)) eqn:E; [|apply slow_bool_did; try assumption; lia].
  assert (so = 1 /\ s = sz) as [-> ->] by lia.
  pose proof (vrounds_did sz 32 L 1 L (uone g) p op Hsz HL H1 H2 ltac:(lia) ltac:(lia) (uone_ok _ g p Hg) Hp a out n m Hn Hm Hop) as D.
  replace ((out + 1 * n - (out + L * (n / L))) / 1) with (n - L * (n / L)) by (rewrite Z.div_1_r; ring).
  erewrite (fold_ext (fun m i => st 1 m (out + L * (n / L) + i * 1) _)); [exact D|].
  intros m' i. cbv beta. now rewrite !Z.mul_1_r.
Qed.
