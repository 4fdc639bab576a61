(** Kernel_Proofs.v - invariants of the element-wise kernels. *)
From Verif Require Import Base Kernel_Model.

Definition pat (sz x : Z) : Prop := 0 <= x < 256 ^ sz.
Definition bytes_ok (m : bytes) : Prop := forall a, 0 <= m a < 256.
Definition good_sz (sz : Z) : Prop := sz = 1 \/ sz = 2 \/ sz = 4 \/ sz = 8.

(** ---------- byte loads and stores ---------- *)
Lemma ldn_ext k : forall m m' a, (forall x, a <= x < a + Z.of_nat k -> m x = m' x) -> ldn k m a = ldn k m' a.
Proof.
  induction k as [|k IH]; intros m m' a H; [reflexivity|]. cbn [ldn].
  rewrite (H a) by lia. rewrite (IH m m' (a + 1)); [reflexivity|]. intros x Hx. apply H. lia.
Qed.

Lemma stn_out k : forall m a v x, ~ (a <= x < a + Z.of_nat k) -> stn k m a v x = m x.
Proof.
  induction k as [|k IH]; intros m a v x H; [reflexivity|]. cbn [stn].
  rewrite IH by lia. apply zupd_neq. lia.
Qed.

Lemma ldn_stn k : forall m a v, 0 <= v < 256 ^ Z.of_nat k -> ldn k (stn k m a v) a = v.
Proof.
  induction k as [|k IH]; intros m a v H.
  - cbn in *. lia.
  - cbn [stn ldn]. rewrite stn_out by lia. rewrite zupd_eq, IH.
    + pose proof (Z.div_mod v 256). lia.
    + rewrite Nat2Z.inj_succ, Z.pow_succ_r in H by lia.
      split; [apply Z.div_pos; lia|apply Z.div_lt_upper_bound; lia].
Qed.

Lemma ldn_pat k : forall m a, bytes_ok m -> 0 <= ldn k m a < 256 ^ Z.of_nat k.
Proof.
  induction k as [|k IH]; intros m a H; [cbn; lia|].
  cbn [ldn]. rewrite Nat2Z.inj_succ, Z.pow_succ_r by lia.
  pose proof (H a). pose proof (IH m (a + 1) H). lia.
Qed.

Lemma stn_ok k : forall m a v, bytes_ok m -> bytes_ok (stn k m a v).
Proof.
  induction k as [|k IH]; intros m a v H; [exact H|]. cbn [stn]. apply IH.
  intros x. unfold zupd. destruct (x =? a); [apply Z.mod_pos_bound; lia|apply H].
Qed.

Lemma good_pos sz : good_sz sz -> 0 < sz.
Proof. unfold good_sz. lia. Qed.

Lemma ld_ext sz m m' a : 0 <= sz -> (forall x, a <= x < a + sz -> m x = m' x) -> ld sz m a = ld sz m' a.
Proof. intros Hs H. apply ldn_ext. intros x Hx. apply H. lia. Qed.
Lemma st_out sz m a v x : 0 <= sz -> ~ (a <= x < a + sz) -> st sz m a v x = m x.
Proof. intros Hs H. apply stn_out. lia. Qed.
Lemma ld_st sz m a v : 0 <= sz -> pat sz v -> ld sz (st sz m a v) a = v.
Proof. intros Hs H. apply ldn_stn. rewrite Z2Nat.id by lia. exact H. Qed.
Lemma ld_pat sz m a : 0 <= sz -> bytes_ok m -> pat sz (ld sz m a).
Proof. intros Hs H. unfold pat. rewrite <- (Z2Nat.id sz) at 3 by lia. apply ldn_pat, H. Qed.
Lemma st_ok sz m a v : bytes_ok m -> bytes_ok (st sz m a v).
Proof. apply stn_ok. Qed.
Lemma ld_st_other sz m a v b : 0 <= sz -> (a + sz <= b \/ b + sz <= a) -> ld sz (st sz m a v) b = ld sz m b.
Proof. intros Hs H. apply ld_ext; [exact Hs|]. intros x Hx. apply st_out; lia. Qed.

(** ---------- the state after the first k outputs ---------- *)
Definition disj (sz a b : Z) : Prop := a + sz <= b \/ b + sz <= a.
(** the n outputs do not overlap one another *)
Definition outs_separate (sz out so n : Z) : Prop :=
  forall i j, 0 <= i < n -> 0 <= j < n -> i <> j -> disj sz (out + i * so) (out + j * so).
(** no output written earlier touches an input read later *)
Definition no_clobber (sz a s out so n : Z) : Prop :=
  forall i j, 0 <= j < i -> i < n -> disj sz (out + j * so) (a + i * s).

(** [upto k]: the first k outputs hold F, no other byte differs from m0 *)
Definition upto (sz out so : Z) (F : Z -> Z) (k : Z) (m0 m : bytes) : Prop :=
  (forall i, 0 <= i < k -> ld sz m (out + i * so) = F i) /\
  (forall x, (forall i, 0 <= i < k -> ~ (out + i * so <= x < out + i * so + sz)) -> m x = m0 x).

Lemma upto_0 sz out so F m0 : upto sz out so F 0 m0 m0.
Proof. split; [intros; lia|reflexivity]. Qed.

Lemma upto_step sz out so F n k m0 m : 0 <= sz -> outs_separate sz out so n -> 0 <= k < n -> pat sz (F k) ->
  upto sz out so F k m0 m -> upto sz out so F (k + 1) m0 (st sz m (out + k * so) (F k)).
Proof.
  intros Hs Ho Hk Hp [U1 U2]. split.
  - intros i Hi. destruct (Z.eq_dec i k) as [->|Hne].
    + apply ld_st; assumption.
    + rewrite ld_st_other; [apply U1; lia|exact Hs|].
      assert (D : disj sz (out + k * so) (out + i * so)) by (apply Ho; lia).
      unfold disj in D. lia.
  - intros x Hx. rewrite st_out.
    + apply U2. intros i Hi. apply Hx. lia.
    + exact Hs.
    + apply Hx. lia.
Qed.

Lemma upto_read sz out so F n k m0 m a s i : 0 <= sz -> no_clobber sz a s out so n -> 0 <= k <= i -> i < n ->
  upto sz out so F k m0 m -> ld sz m (a + i * s) = ld sz m0 (a + i * s).
Proof.
  intros Hs Hc Hk Hi [_ U2]. apply ld_ext; [exact Hs|]. intros x Hx. apply U2.
  intros j Hj. specialize (Hc i j ltac:(lia) Hi). unfold disj in Hc. lia.
Qed.

Lemma zrange_app_ind (P : Z -> bytes -> Prop) (f : bytes -> Z -> bytes) m n :
  0 <= n -> P 0 m -> (forall k m', 0 <= k < n -> P k m' -> P (k + 1) (f m' k)) ->
  P n (fold_left f (zrange 0 n) m).
Proof.
  intros Hn H0 Hs.
  assert (G : forall k, 0 <= k -> k <= n -> P k (fold_left f (zrange 0 k) m)).
  { intros k Hk. pattern k. apply natlike_ind; [| |exact Hk].
    - intros _. rewrite zrange_nil by lia. exact H0.
    - intros x Hx IH Hle. unfold Z.succ in *. rewrite zrange_snoc by lia. rewrite fold_left_app. cbn [fold_left].
      apply Hs; [lia|]. apply IH. lia. }
  apply G; lia.
Qed.

(** ---------- operands ---------- *)
(** operand [o], read by a loop whose element 0 is element [base] of the call, delivers [v] *)
Definition delivers (sz out so n : Z) (F : Z -> Z) (m0 : bytes) (o : opd) (base : Z) (v : Z -> Z) : Prop :=
  forall k i m, 0 <= k <= i -> i < n -> base <= i -> upto sz out so F k m0 m -> rd sz m o (i - base) = v i.

Lemma delivers_ptr sz out so n F m0 a s base : 0 <= sz -> no_clobber sz a s out so n ->
  delivers sz out so n F m0 (Ptr (a + base * s) s) base (fun i => ld sz m0 (a + i * s)).
Proof.
  intros Hs Hc k i m Hk Hi Hb U. cbn [rd].
  replace (a + base * s + (i - base) * s) with (a + i * s) by ring.
  eapply upto_read; eauto.
Qed.

Lemma scalar_loop_upto sz op out so n F m0 x y vx vy base cnt m :
  0 <= sz -> outs_separate sz out so n -> 0 <= base -> 0 <= cnt -> base + cnt <= n ->
  delivers sz out so n F m0 x base vx -> delivers sz out so n F m0 y base vy ->
  (forall i, 0 <= i < n -> F i = op (vx i) (vy i)) -> (forall i, 0 <= i < n -> pat sz (F i)) ->
  upto sz out so F base m0 m ->
  upto sz out so F (base + cnt) m0 (scalar_loop sz op x y (out + base * so) so cnt m).
Proof.
  intros Hs Ho Hb Hc Hle Dx Dy HF Hp U. unfold scalar_loop.
  apply (zrange_app_ind (fun k m' => upto sz out so F (base + k) m0 m')); [exact Hc| |].
  - rewrite Z.add_0_r. exact U.
  - intros k m' Hk U'.
    pose proof (Dx (base + k) (base + k) m' ltac:(lia) ltac:(lia) ltac:(lia) U') as Ex.
    pose proof (Dy (base + k) (base + k) m' ltac:(lia) ltac:(lia) ltac:(lia) U') as Ey.
    replace (base + k - base) with k in Ex, Ey by lia.
    rewrite Ex, Ey, <- HF by lia.
    replace (out + base * so + k * so) with (out + (base + k) * so) by ring.
    replace (base + (k + 1)) with (base + k + 1) by lia.
    eapply upto_step; eauto; try (apply Hp); lia.
Qed.

(** ---------- vectors ---------- *)
Lemma storev_upto sz out F n m0 : 0 <= sz -> outs_separate sz out sz n ->
  (forall i, 0 <= i < n -> pat sz (F i)) ->
  forall cnt k m, 0 <= k -> k + Z.of_nat cnt <= n -> upto sz out sz F k m0 m ->
  upto sz out sz F (k + Z.of_nat cnt) m0 (storev sz m (out + k * sz) (map F (zseq k cnt))).
Proof.
  intros Hs Ho Hp. induction cnt as [|cnt IH]; intros k m Hk Hle U.
  - cbn. rewrite Z.add_0_r. exact U.
  - cbn [zseq map storev].
    replace (out + k * sz + sz) with (out + (k + 1) * sz) by ring.
    replace (k + Z.of_nat (S cnt)) with (k + 1 + Z.of_nat cnt) by lia.
    apply IH; [lia|lia|]. eapply upto_step; eauto; try (apply Hp); lia.
Qed.

Lemma lanes2_map f (g h : Z -> Z) l : lanes2 f (map g l) (map h l) = map (fun i => f (g i) (h i)) l.
Proof. induction l as [|a l IH]; [reflexivity|]. cbn. now rewrite IH. Qed.

Lemma map_zseq_shift (g : Z -> Z) a n : map g (zseq a n) = map (fun l => g (a + l)) (zseq 0 n).
Proof.
  revert a g. induction n as [|n IH]; intros a g; [reflexivity|].
  cbn [zseq map]. rewrite Z.add_0_r. f_equal. rewrite IH. rewrite (IH (0 + 1)).
  apply map_ext. intros l. f_equal. lia.
Qed.

Lemma perReg_props sz : good_sz sz -> perReg sz * sz = 32 /\ 0 < perReg sz /\
  (forall n, 0 <= n -> Z.land n (perReg sz - 1) = n mod perReg sz).
Proof.
  intros [->|[->|[->| ->]]]; (split; [reflexivity|]); (split; [reflexivity|]); intros n Hn.
  - change (perReg 1) with (2 ^ 5). rewrite <- Z.land_ones by lia. reflexivity.
  - change (perReg 2) with (2 ^ 4). rewrite <- Z.land_ones by lia. reflexivity.
  - change (perReg 4) with (2 ^ 3). rewrite <- Z.land_ones by lia. reflexivity.
  - change (perReg 8) with (2 ^ 2). rewrite <- Z.land_ones by lia. reflexivity.
Qed.

(** a register operand delivers the same lanes as the scalar operand *)
Definition delivers_v (sz out n : Z) (F : Z -> Z) (m0 : bytes) (o : opd) (base : Z) (v : Z -> Z) : Prop :=
  forall k m, 0 <= k -> base + (k + 1) * perReg sz <= n -> upto sz out sz F (base + k * perReg sz) m0 m ->
    rdv sz m o k = map v (zseq (base + k * perReg sz) (Z.to_nat (perReg sz))).

Lemma delivers_v_of sz out n F m0 o base v : good_sz sz -> 0 <= base ->
  (forall p s, o = Ptr p s -> s = sz) ->
  delivers sz out sz n F m0 o base v -> delivers_v sz out n F m0 o base v.
Proof.
  intros Hg Hb Hs D k m Hk Hle U.
  destruct (perReg_props sz Hg) as (HL & Lpos & _).
  assert (E : rdv sz m o k = map (fun l => rd sz m o (k * perReg sz + l)) (zrange 0 (perReg sz))).
  { destruct o as [p s|w]; cbn [rdv rd].
    - rewrite (Hs p s eq_refl). unfold loadv. apply map_ext. intros l. f_equal. rewrite <- HL. ring.
    - reflexivity. }
  rewrite E. rewrite map_zseq_shift. unfold zrange.
  replace (perReg sz - 0) with (perReg sz) by lia.
  apply map_ext_in. intros l Hl. apply zseq_In in Hl.
  rewrite <- (D (base + k * perReg sz) (base + k * perReg sz + l) m).
  - f_equal. lia.
  - nia.
  - nia.
  - nia.
  - exact U.
Qed.

Lemma vector_loop_upto sz opv out n F m0 x y vx vy base q m :
  good_sz sz -> outs_separate sz out sz n -> 0 <= base -> 0 <= q -> base + q * perReg sz <= n ->
  delivers_v sz out n F m0 x base vx -> delivers_v sz out n F m0 y base vy ->
  (forall i, 0 <= i < n -> pat sz (F i)) ->
  (forall i, 0 <= i < n -> opv (vx i) (vy i) = F i) ->
  upto sz out sz F base m0 m ->
  upto sz out sz F (base + q * perReg sz) m0 (vector_loop sz opv x y (out + base * sz) q m).
Proof.
  intros Hg Ho Hb Hq Hle Dx Dy Hp Hv U. unfold vector_loop.
  destruct (perReg_props sz Hg) as (HL & Lpos & _).
  apply (zrange_app_ind (fun k m' => upto sz out sz F (base + k * perReg sz) m0 m')); [exact Hq| |].
  { replace (base + 0 * perReg sz) with base by lia. exact U. }
  intros k m' Hk U'.
  rewrite (Dx k m'), (Dy k m') by (try nia; exact U'). rewrite lanes2_map.
  replace (map (fun i => opv (vx i) (vy i)) (zseq (base + k * perReg sz) (Z.to_nat (perReg sz))))
    with (map F (zseq (base + k * perReg sz) (Z.to_nat (perReg sz)))).
  2:{ apply map_ext_in. intros i Hi. apply zseq_In in Hi. rewrite Hv by nia. reflexivity. }
  replace (out + base * sz + 32 * k) with (out + (base + k * perReg sz) * sz) by (rewrite <- HL; ring).
  replace (base + (k + 1) * perReg sz) with (base + k * perReg sz + Z.of_nat (Z.to_nat (perReg sz))) by lia.
  apply (storev_upto sz out F n m0); try assumption; try nia; try lia.
Qed.

Lemma delivers_adv sz out n F m0 o v q : good_sz sz -> 0 <= q ->
  (forall p s, o = Ptr p s -> s = sz) ->
  delivers sz out sz n F m0 o 0 v -> delivers sz out sz n F m0 (adv o (32 * q)) (q * perReg sz) v.
Proof.
  intros Hg Hq Hs D k i m Hk Hi Hb U.
  destruct (perReg_props sz Hg) as (HL & Lpos & _).
  rewrite <- (D k i m Hk Hi) by (try nia; exact U). rewrite Z.sub_0_r.
  destruct o as [p s|w]; cbn [adv rd]; [|reflexivity]. rewrite (Hs p s eq_refl). f_equal. rewrite <- HL. ring.
Qed.

(** the vector body followed by the scalar tail *)
Lemma body_and_tail_upto sz op opv out n F m0 x y xv yv vx vy vx' vy' :
  good_sz sz -> outs_separate sz out sz n -> 0 <= n ->
  (forall p s, x = Ptr p s -> s = sz) -> (forall p s, y = Ptr p s -> s = sz) ->
  (forall p s, xv = Ptr p s -> s = sz) -> (forall p s, yv = Ptr p s -> s = sz) ->
  delivers sz out sz n F m0 x 0 vx -> delivers sz out sz n F m0 y 0 vy ->
  delivers sz out sz n F m0 xv 0 vx' -> delivers sz out sz n F m0 yv 0 vy' ->
  (forall i, 0 <= i < n -> F i = op (vx i) (vy i)) -> (forall i, 0 <= i < n -> pat sz (F i)) ->
  (forall i, 0 <= i < n -> opv (vx' i) (vy' i) = F i) ->
  upto sz out sz F n m0 (body_and_tail sz op opv x y xv yv out n m0).
Proof.
  intros Hg Ho Hn Sx Sy Sxv Syv Dx Dy Dxv Dyv HF Hp Hv.
  destruct (perReg_props sz Hg) as (HL & Lpos & Hland). pose proof (good_pos sz Hg) as Hs.
  unfold body_and_tail. destruct (Z.leb_spec (perReg sz) n) as [Hc|Hc].
  - rewrite Hland by exact Hn. set (q := n / perReg sz).
    assert (Hq : 0 <= q) by (apply Z.div_pos; lia).
    pose proof (Z.div_mod n (perReg sz) ltac:(lia)) as HD. fold q in HD.
    pose proof (Z.mod_pos_bound n (perReg sz) Lpos) as HM.
    assert (HDq : q * perReg sz + n mod perReg sz = n) by lia.
    rewrite <- HDq at 1. replace (out + 32 * q) with (out + (q * perReg sz) * sz) by (rewrite <- HL; ring).
    clearbody q. apply (scalar_loop_upto sz op out sz n F m0) with (vx := vx) (vy := vy); try assumption; try nia.
    + apply delivers_adv; assumption.
    + apply delivers_adv; assumption.
    + pose proof (vector_loop_upto sz opv out n F m0 xv yv vx' vy' 0 q m0) as V.
      rewrite !Z.add_0_l in V. replace (out + 0 * sz) with out in V by lia. apply V; try assumption; try nia.
      * apply delivers_v_of; try assumption; lia.
      * apply delivers_v_of; try assumption; lia.
      * apply upto_0.
  - replace n with (0 + n) at 1 by lia. replace out with (out + 0 * sz) at 2 by lia.
    apply (scalar_loop_upto sz op out sz n F m0) with (vx := vx) (vy := vy); try assumption; try lia.
    apply upto_0.
Qed.

Lemma aligned_loop_spec sz vf p q m : p mod 32 = 0 -> 0 <= q ->
  aligned_loop sz vf p q m = Some (fold_left (fun m k => storev sz m (p + 32 * k) (vf (loadv sz m (p + 32 * k)))) (zrange 0 q) m).
Proof.
  intros Hp Hq. unfold aligned_loop.
  assert (G : forall l om, fold_left (fun om k => match om with
        | None => None
        | Some m => if (p + 32 * k) mod 32 =? 0 then Some (storev sz m (p + 32 * k) (vf (loadv sz m (p + 32 * k)))) else None
        end) l (Some om) = Some (fold_left (fun m k => storev sz m (p + 32 * k) (vf (loadv sz m (p + 32 * k)))) l om)).
  { induction l as [|k l IH]; intros om; [reflexivity|]. cbn [fold_left].
    replace ((p + 32 * k) mod 32) with 0; [cbn [Z.eqb]; apply IH|].
    replace (p + 32 * k) with (p + k * 32) by ring. rewrite Z.mod_add by lia. lia. }
  apply G.
Qed.

Lemma vf_loop_eq sz opv (swap : bool) v p q m :
  fold_left (fun m k => storev sz m (p + 32 * k)
     ((if swap then lanes2 opv (mm_set sz v) (loadv sz m (p + 32 * k))
       else lanes2 opv (loadv sz m (p + 32 * k)) (mm_set sz v)))) (zrange 0 q) m
  = (if swap then vector_loop sz opv (Val v) (Ptr p sz) p q m else vector_loop sz opv (Ptr p sz) (Val v) p q m).
Proof. unfold vector_loop, rdv. destruct swap; reflexivity. Qed.

Lemma delivers_val sz out so n F m0 base v : delivers sz out so n F m0 (Val v) base (fun _ => v).
Proof. intros k i m _ _ _ _. reflexivity. Qed.

(** the in-place vector/scalar case never faults and is right; [swap]: the scalar is the first lane operand *)
Lemma inplace_scalar_upto sz op opv (swap : bool) p a2 n F m0 :
  good_sz sz -> 0 <= n -> p mod sz = 0 ->
  outs_separate sz p sz n -> no_clobber sz a2 0 p sz n ->
  (forall i, 0 <= i < n -> F i = op (ld sz m0 (p + i * sz)) (ld sz m0 a2)) ->
  (forall i, 0 <= i < n -> pat sz (F i)) ->
  (forall i, 0 <= i < n -> (if swap then opv (ld sz m0 a2) (ld sz m0 (p + i * sz)) else opv (ld sz m0 (p + i * sz)) (ld sz m0 a2)) = F i) ->
  exists m', inplace_scalar sz op (fun v x => if swap then lanes2 opv (mm_set sz v) x else lanes2 opv x (mm_set sz v)) p a2 n m0 = Some m'
    /\ upto sz p sz F n m0 m'.
Proof.
  intros Hg Hn Hal Ho Hc HF Hp Hv.
  destruct (perReg_props sz Hg) as (HL & Lpos & Hland). pose proof (good_pos sz Hg) as Hs.
  set (x0 := fun i => ld sz m0 (p + i * sz)).
  assert (Hself : no_clobber sz p sz p sz n).
  { intros i j Hj Hi. unfold disj. nia. }
  assert (Dp : forall base, delivers sz p sz n F m0 (Ptr (p + base * sz) sz) base x0).
  { intros base. apply delivers_ptr; [lia|exact Hself]. }
  assert (Dv : forall base, delivers sz p sz n F m0 (Val (ld sz m0 a2)) base (fun _ => ld sz m0 a2)).
  { intros base. apply delivers_val. }
  assert (Hoff : 0 <= Z.land p 31 < 32 /\ Z.land p 31 = p mod 32).
  { change 31 with (Z.ones 5). rewrite Z.land_ones by lia. change (2 ^ 5) with 32.
    split; [apply Z.mod_pos_bound; lia|reflexivity]. }
  destruct Hoff as [Hoff1 Hoff2].
  unfold inplace_scalar. set (off := Z.land p 31) in *. set (bl := (32 - off) / sz).
  assert (Hbl : off <> 0 -> bl * sz = 32 - off /\ 0 < bl < perReg sz).
  { intros Hne. assert (Hd : (32 - off) mod sz = 0).
    { destruct Hg as [->|[->|[->| ->]]]; lia. }
    pose proof (Z.div_mod (32 - off) sz ltac:(lia)) as E. fold bl in E. nia. }
  (* the loop after the peel, from element [b] *)
  assert (Main : forall b m1, 0 <= b <= n -> upto sz p sz F b m0 m1 ->
     (perReg sz <= n - b -> (p + b * sz) mod 32 = 0) ->
     exists m', (if perReg sz <=? n - b then
        match aligned_loop sz (fun x => if swap then lanes2 opv (mm_set sz (ld sz m1 a2)) x else lanes2 opv x (mm_set sz (ld sz m1 a2))) (p + b * sz) ((n - b) / perReg sz) m1 with
        | None => None
        | Some m2 => Some (scalar_loop sz op (Ptr (p + b * sz + 32 * ((n - b) / perReg sz)) sz) (Val (ld sz m0 a2))
                             (p + b * sz + 32 * ((n - b) / perReg sz)) sz (Z.land (n - b) (perReg sz - 1)) m2)
        end
      else Some (scalar_loop sz op (Ptr (p + b * sz) sz) (Val (ld sz m0 a2)) (p + b * sz) sz (n - b) m1)) = Some m'
      /\ upto sz p sz F n m0 m').
  { intros b m1 Hb U Hmod. destruct (Z.leb_spec (perReg sz) (n - b)) as [Hcs|Hcs].
    - rewrite Hland by lia. specialize (Hmod Hcs).
      set (q := (n - b) / perReg sz).
      assert (Hq : 0 <= q) by (apply Z.div_pos; lia).
      pose proof (Z.div_mod (n - b) (perReg sz) ltac:(lia)) as HD. fold q in HD.
      pose proof (Z.mod_pos_bound (n - b) (perReg sz) Lpos) as HM. clearbody q.
      rewrite aligned_loop_spec by (try exact Hmod; lia). rewrite vf_loop_eq.
      assert (Ev : ld sz m1 a2 = ld sz m0 a2).
      { pose proof (upto_read sz p sz F n b m0 m1 a2 0 b ltac:(lia) Hc ltac:(lia) ltac:(lia) U) as R.
        replace (a2 + b * 0) with a2 in R by lia. exact R. }
      rewrite Ev. eexists. split; [reflexivity|].
      replace (p + b * sz + 32 * q) with (p + (b + q * perReg sz) * sz) by (rewrite <- HL; ring).
      assert (HDq : (b + q * perReg sz) + (n - b) mod perReg sz = n) by lia.
      rewrite <- HDq at 1.
      apply (scalar_loop_upto sz op p sz n F m0) with (vx := x0) (vy := fun _ => ld sz m0 a2);
        try assumption; try nia; try apply Dp; try apply Dv.
      destruct swap.
      + apply (vector_loop_upto sz opv p n F m0 _ _ (fun _ => ld sz m0 a2) x0); try assumption; try nia.
        * apply delivers_v_of; try assumption; try lia; [intros ? ? E; discriminate E|apply Dv].
        * apply delivers_v_of; try assumption; try lia; [intros ? ? E; now injection E|apply Dp].
      + apply (vector_loop_upto sz opv p n F m0 _ _ x0 (fun _ => ld sz m0 a2)); try assumption; try nia.
        * apply delivers_v_of; try assumption; try lia; [intros ? ? E; now injection E|apply Dp].
        * apply delivers_v_of; try assumption; try lia; [intros ? ? E; discriminate E|apply Dv].
    - eexists. split; [reflexivity|]. replace n with (b + (n - b)) at 1 by lia.
      apply (scalar_loop_upto sz op p sz n F m0) with (vx := x0) (vy := fun _ => ld sz m0 a2);
        try assumption; try nia; try apply Dp; try apply Dv. }
  destruct (Z.eqb_spec off 0) as [E0|E0]; cbn [negb andb].
  - pose proof (Main 0 m0 ltac:(lia) (upto_0 _ _ _ _ _)) as M.
    replace (p + 0 * sz) with p in M by lia. rewrite Z.sub_0_r in M.
    apply M. intros _. lia.
  - destruct (Hbl E0) as [Hb1 Hb2]. destruct (Z.leb_spec bl n) as [Hle|Hle].
    + apply (Main bl); [lia| |].
      * pose proof (scalar_loop_upto sz op p sz n F m0 (Ptr p sz) (Val (ld sz m0 a2)) x0 (fun _ => ld sz m0 a2) 0 bl m0) as S.
        replace (p + 0 * sz) with p in S by lia. rewrite Z.add_0_l in S.
        apply S; try assumption; try lia; [|apply Dv|apply upto_0].
        pose proof (Dp 0) as D0. replace (p + 0 * sz) with p in D0 by lia. exact D0.
      * intros _. rewrite Hb1. lia.
    + pose proof (Main 0 m0 ltac:(lia) (upto_0 _ _ _ _ _)) as M.
      replace (p + 0 * sz) with p in M by lia. rewrite Z.sub_0_r in M.
      apply M. intros Hge. lia.
Qed.
