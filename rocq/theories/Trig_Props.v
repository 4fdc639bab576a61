(** Trig_Props.v - C58 (special values of np.exp and np.log), C61 (sin odd, cos even), C62 (position). *)
From Verif Require Import Base Kernel_Model Kernel_Proofs Kernel_Props Float_Model Compare_Model Compare_Proofs Compare_Props Unary_Model Unary_Proofs Unary_Props UnaryVal_Props Round_Model Round_Props Arith_Model Arith_Props Trig_Model Trig_Fast.

(** ---------- patterns stay patterns ---------- *)
Definition inr (f : fmt) (x : Z) : Prop := 0 <= x < 2 ^ fwidth f.
Lemma fw_pos f : known f -> 0 < fwidth f. Proof. intros [-> | ->]; reflexivity. Qed.
Lemma pow_split a b : inr a b <-> 0 <= b < 2 ^ fwidth a. Proof. reflexivity. Qed.
Lemma bits_high n x k : 0 <= n -> 0 <= x < 2 ^ n -> n <= k -> Z.testbit x k = false.
Proof.
  intros Hn Hx Hk. destruct (Z.eq_dec x 0) as [->|Hne]; [apply Z.bits_0|]. apply Z.bits_above_log2; [lia|].
  assert (Z.log2 x < n) by (apply Z.log2_lt_pow2; lia). lia.
Qed.
Lemma lt_bits n x : 0 <= n -> 0 <= x -> (forall k, n <= k -> Z.testbit x k = false) -> x < 2 ^ n.
Proof.
  intros Hn Hx H. destruct (Z.eq_dec x 0) as [->|Hne]; [apply Z.pow_pos_nonneg; lia|].
  apply Z.log2_lt_pow2; [lia|]. destruct (Z_lt_ge_dec (Z.log2 x) n) as [|G]; [assumption|exfalso].
  pose proof (Z.bit_log2 x ltac:(lia)) as B. rewrite H in B by lia. discriminate.
Qed.
Lemma lor_in f x y : known f -> inr f x -> inr f y -> inr f (Z.lor x y).
Proof.
  intros K Hx Hy. pose proof (fw_pos f K). unfold inr in *. assert (0 <= Z.lor x y) by (apply Z.lor_nonneg; lia). split; [assumption|].
  apply lt_bits; try lia. intros k Hk. rewrite Z.lor_spec, !(bits_high (fwidth f)) by lia. reflexivity.
Qed.
Lemma lxor_in f x y : known f -> inr f x -> inr f y -> inr f (Z.lxor x y).
Proof.
  intros K Hx Hy. pose proof (fw_pos f K). unfold inr in *. assert (0 <= Z.lxor x y) by (apply Z.lxor_nonneg; lia). split; [assumption|].
  apply lt_bits; try lia. intros k Hk. rewrite Z.lxor_spec, !(bits_high (fwidth f)) by lia. reflexivity.
Qed.
Lemma land_in f x y : known f -> inr f x -> inr f y -> inr f (Z.land x y).
Proof.
  intros K Hx Hy. pose proof (fw_pos f K). unfold inr in *. assert (0 <= Z.land x y) by (apply Z.land_nonneg; lia). split; [assumption|].
  apply lt_bits; try lia. intros k Hk. rewrite Z.land_spec, !(bits_high (fwidth f)) by lia. reflexivity.
Qed.
Lemma mul_in f x y : known f -> inr f (f_mul f x y).
Proof.
  intros K. unfold inr, f_mul. destruct (qnan_ok f K) as [Q _]. destruct (is_nan f x || is_nan f y); [exact Q|].
  destruct (_ || _); [exact Q|]. pose proof (inf_bound f K) as [IB _].
  destruct (_ || _); apply put_ok; try assumption; [lia|]. apply rnd_range; [assumption| |].
  - apply Z.mul_nonneg_nonneg; apply mv_nonneg; try assumption; apply Z.mod_pos_bound; destruct K as [-> | ->]; reflexivity.
  - destruct (uv f K) as [-> ?]. assumption.
Qed.
Lemma add_in f x y : known f -> inr f x -> inr f y -> inr f (f_add f x y).
Proof. intros K Hx Hy. apply (add_ok f K x y Hx Hy). Qed.
Lemma flip_in f x : known f -> inr f x -> inr f (f_flip f x).
Proof.
  intros K Hx. apply lxor_in; try assumption. split; [apply Z.pow_nonneg; lia|]. apply Z.pow_lt_mono_r; pose proof (fw_pos f K); lia.
Qed.
Lemma sub_in f x y : known f -> inr f x -> inr f y -> inr f (f_sub f x y).
Proof. intros K Hx Hy. unfold f_sub. apply add_in; try assumption. now apply flip_in. Qed.
Lemma lit_in f a b : known f -> 0 < b -> inr f (lit f a b).
Proof.
  intros K Hb. unfold lit. apply put_ok; [assumption|]. apply rnd_range; try assumption. apply Z.mul_nonneg_nonneg; [lia|].
  destruct (uv f K) as [-> ?]. lia.
Qed.
Lemma mask_in f b : known f -> inr f (mask f b).
Proof. intros K. unfold inr, mask, ones. assert (0 < 2 ^ fwidth f) by (apply Z.pow_pos_nonneg; pose proof (fw_pos f K); lia). destruct b; lia. Qed.
Lemma horner_in f x c0 cs : known f -> inr f c0 -> Forall (inr f) cs -> inr f (horner f x c0 cs).
Proof.
  intros K H HF. revert c0 H. induction HF as [|c cs Hc HF IH]; intros c0 H; cbn; [assumption|]. apply IH. apply add_in; try assumption. now apply mul_in.
Qed.
Lemma zero_in f : known f -> inr f 0. Proof. intros [-> | ->]; vm_compute; split; congruence. Qed.
Lemma smod_in f x : known f -> inr f (x mod 2 ^ fwidth f).
Proof. intros K. unfold inr. apply Z.mod_pos_bound. apply Z.pow_pos_nonneg; pose proof (fw_pos f K); lia. Qed.
Lemma max_in f x y : inr f x -> inr f y -> inr f (f_max f x y). Proof. unfold f_max. destruct (f_gt f x y); auto. Qed.
Lemma min_in f x y : inr f x -> inr f y -> inr f (f_min f x y). Proof. unfold f_min. destruct (f_lt f x y); auto. Qed.
Lemma isF_iff f : known f -> (f = FLT /\ isF f = true) \/ (f = DBL /\ isF f = false).
Proof. intros [-> | ->]; [left|right]; split; reflexivity. Qed.

Lemma exp_in f x : known f -> inr f (exp256 f x).
Proof. intros K. apply mul_in, K. Qed.
Ltac lits := repeat (first [apply Forall_cons|apply Forall_nil]); apply lit_in; try assumption; reflexivity.
Lemma log_ps_in f : known f -> Forall (inr f) (log_ps f).
Proof. intros K. unfold log_ps. repeat apply Forall_cons; try apply Forall_nil; apply lit_in; try assumption; reflexivity. Qed.
Lemma of_int_in f x : known f -> inr f (of_int f x).
Proof.
  intros K. unfold of_int. destruct (isF_iff f K) as [[-> ->]|[-> ->]].
  - apply lit_in; [now left|reflexivity].
  - apply sub_in; try (now right); [now apply smod_in; right|apply lit_in; [now right|reflexivity]].
Qed.
Lemma log_in f x : known f -> inr f x -> inr f (log256 f x).
Proof.
  intros K Hx. unfold log256. cbv zeta.
  assert (O : inr f (c_one f)) by (apply lit_in; [assumption|reflexivity]).
  assert (H5 : inr f (c_0p5 f)) by (apply lit_in; [assumption|reflexivity]).
  assert (MN : inr f (c_min_norm_pos f)) by (destruct K as [-> | ->]; vm_compute; split; congruence).
  assert (IM : inr f (c_inv_mant_mask f)) by (destruct K as [-> | ->]; vm_compute; split; congruence).
  apply lor_in; [assumption| |now apply mask_in].
  set (x1 := Z.lor _ _). assert (X1 : inr f x1) by (apply lor_in; try assumption; apply land_in; try assumption; now apply max_in).
  set (x2 := f_add f (f_sub f x1 _) _). assert (X2 : inr f x2).
  { apply add_in; try assumption; [now apply sub_in|]. apply land_in; try assumption. now apply mask_in. }
  clearbody x2. repeat first [assumption|apply sub_in|apply add_in|apply mul_in].
Qed.
Lemma selected_in f x p s : known f -> inr f x -> inr f p -> inr f s -> inr f (selected f x p s).
Proof.
  intros K Hx Hp Hs. unfold selected. cbv zeta. apply lxor_in; try assumption.
  assert (O : inr f (c_one f)) by (apply lit_in; [assumption|reflexivity]).
  apply add_in; try assumption.
  - unfold andnot. apply land_in; try assumption; [unfold inr, ones in *; lia|].
    unfold cos_poly. cbv zeta. apply add_in; try assumption. apply sub_in; try assumption; now apply mul_in.
  - apply land_in; try assumption. unfold sin_poly. apply add_in; try assumption. now apply mul_in.
Qed.
Lemma inv_sign_in f : known f -> inr f (c_inv_sign_mask f) /\ inr f (c_sign_mask f).
Proof. intros [-> | ->]; vm_compute; repeat split; congruence. Qed.
Lemma reduced_in f x y : known f -> inr f x -> inr f (reduced f x y).
Proof. intros K Hx. unfold reduced. repeat first [apply add_in|apply mul_in]; assumption. Qed.
Lemma sin_in f x : known f -> inr f x -> inr f (sin256 f x).
Proof.
  intros K Hx. unfold sin256. cbv zeta. destruct (inv_sign_in f K). apply selected_in; try assumption; [|now apply mask_in|].
  - apply reduced_in; try assumption. now apply land_in.
  - apply lxor_in; try assumption; [now apply land_in|now apply smod_in].
Qed.
Lemma cos_in f x : known f -> inr f x -> inr f (cos256 f x).
Proof.
  intros K Hx. unfold cos256. cbv zeta. destruct (inv_sign_in f K). apply selected_in; try assumption; [|now apply mask_in|now apply smod_in].
  apply reduced_in; try assumption. now apply land_in.
Qed.
Lemma lane_in u f g x : known f -> trig_lane u f = Some g -> inr f x -> inr f (g x).
Proof.
  intros K E Hx. destruct u; cbn in E; inversion E; subst g; [now apply sin_in|now apply cos_in|now apply exp_in|now apply log_in].
Qed.

(** ---------- a call, element by element ---------- *)
(** the vector function runs on the elements of the whole 32-byte registers of a contiguous call, libm on the others *)
Lemma trig_call u f lane libm numpy a out n s so m : known f -> trig_lane u f = Some lane ->
  (forall x, pat (fsize f) x -> pat (fsize f) (libm x)) -> 0 <= n -> so <> 0 -> bytes_ok m ->
  outs_separate (fsize f) out so n -> no_clobber (fsize f) a s out so n ->
  upto (fsize f) out so (fun i => (if in_body (fsize f) s so n i then lane else libm) (ld (fsize f) m (a + i * s))) n m
    (TrigCall u f libm numpy a out n s so m).
Proof.
  intros K E Hl Hn Hso Hm Ho Hc. unfold TrigCall. rewrite E. destruct (Z.eqb_spec so 0) as [|_]; [contradiction|].
  change (fwidth f / 8) with (fsize f). apply unary_split; try assumption.
  - unfold good_sz. destruct K as [-> | ->]; [change (fsize FLT) with 4|change (fsize DBL) with 8]; lia.
  - intros x Hx. apply fpat; [assumption|]. eapply lane_in; eauto. now apply fpat.
Qed.

(** a contiguous call on an array of n elements of format f, into another array *)
Definition contiguous (f : fmt) (a out n : Z) (m : bytes) : Prop :=
  0 <= n /\ bytes_ok m /\ outs_separate (fsize f) out (fsize f) n /\ no_clobber (fsize f) a (fsize f) out (fsize f) n.
(** element i lies in one of the whole 32-byte groups of the array: the first 8 * (n / 8) float32, 4 * (n / 4) float64 *)
Definition in_groups (f : fmt) (n i : Z) : Prop := 0 <= i < (32 / fsize f) * (n / (32 / fsize f)).
(** any scalar library function on f *)
Definition scalar_fun (f : fmt) (libm : Z -> Z) : Prop := forall x, 0 <= x < 2 ^ fwidth f -> 0 <= libm x < 2 ^ fwidth f.
(** element i before and after np.u *)
Definition elem (f : fmt) (m : bytes) (a i : Z) : Z := ld (fsize f) m (a + i * fsize f).

Lemma groups_in f n i : known f -> 0 <= n -> in_groups f n i -> 0 <= i < n /\ in_body (fsize f) (fsize f) (fsize f) n i = true.
Proof.
  intros K Hn [H1 H2]. unfold in_body, perReg. rewrite !Z.eqb_refl. cbn [andb].
  assert (L : 0 < 32 / fsize f) by (destruct K as [-> | ->]; reflexivity).
  pose proof (Z.mul_div_le n (32 / fsize f) L). split; [lia|]. apply Z.ltb_lt. lia.
Qed.
Lemma elem_in f m a i : known f -> bytes_ok m -> inr f (elem f m a i).
Proof. intros K Hm. apply fpat; [assumption|]. apply ld_pat; [destruct K as [-> | ->]; discriminate|assumption]. Qed.
Lemma body_answer u f lane libm numpy a out n m i : known f -> trig_lane u f = Some lane -> scalar_fun f libm ->
  contiguous f a out n m -> in_groups f n i ->
  elem f (TrigCall u f libm numpy a out n (fsize f) (fsize f) m) out i = lane (elem f m a i).
Proof.
  intros K E Hl (Hn & Hm & Ho & Hc) G. destruct (groups_in f n i K Hn G) as [Hi B].
  assert (Hl' : forall x, pat (fsize f) x -> pat (fsize f) (libm x)) by (intros x Hx; apply fpat; [assumption|]; apply Hl; now apply fpat).
  assert (S : fsize f <> 0) by (destruct K as [-> | ->]; discriminate).
  destruct (trig_call u f lane libm numpy a out n (fsize f) (fsize f) m K E Hl' Hn S Hm Ho Hc) as [U _].
  unfold elem. rewrite U by exact Hi. now rewrite B.
Qed.
Lemma tail_answer u f lane libm numpy a out n m i : known f -> trig_lane u f = Some lane -> scalar_fun f libm ->
  contiguous f a out n m -> 0 <= i < n -> ~ in_groups f n i ->
  elem f (TrigCall u f libm numpy a out n (fsize f) (fsize f) m) out i = libm (elem f m a i).
Proof.
  intros K E Hl (Hn & Hm & Ho & Hc) Hi G.
  assert (Hl' : forall x, pat (fsize f) x -> pat (fsize f) (libm x)) by (intros x Hx; apply fpat; [assumption|]; apply Hl; now apply fpat).
  assert (S : fsize f <> 0) by (destruct K as [-> | ->]; discriminate).
  destruct (trig_call u f lane libm numpy a out n (fsize f) (fsize f) m K E Hl' Hn S Hm Ho Hc) as [U _].
  unfold elem. rewrite U by exact Hi. replace (in_body _ _ _ n i) with false; [reflexivity|].
  unfold in_body, perReg. rewrite !Z.eqb_refl. cbn [andb]. symmetry. apply Z.ltb_ge. unfold in_groups in G. lia.
Qed.

(** ---------- C61: np.sin is odd and np.cos is even ---------- *)
(** the pattern with the opposite sign bit *)
Definition opp (f : fmt) (x : Z) : Z := if x <? 2 ^ (fwidth f - 1) then x + 2 ^ (fwidth f - 1) else x - 2 ^ (fwidth f - 1).
Lemma opp_flip f x : known f -> inr f x -> opp f x = f_flip f x.
Proof.
  intros K Hx. rewrite (flip_cases f K x Hx). unfold opp, fneg. destruct (Z.ltb_spec x (2 ^ (fwidth f - 1))), (Z.leb_spec (2 ^ (fwidth f - 1)) x); lia.
Qed.
Lemma masks f : known f -> c_inv_sign_mask f = Z.ones (fwidth f - 1) /\ c_sign_mask f = 2 ^ (fwidth f - 1).
Proof. intros [-> | ->]; split; reflexivity. Qed.
Lemma flip_mag f x : known f -> inr f x -> Z.land (f_flip f x) (c_inv_sign_mask f) = Z.land x (c_inv_sign_mask f).
Proof.
  intros K Hx. destruct (masks f K) as [-> _]. pose proof (fw_pos f K). unfold f_flip. apply Z.bits_inj'. intros k Hk.
  rewrite !Z.land_spec, Z.lxor_spec. destruct (Z_lt_ge_dec k (fwidth f - 1)).
  - rewrite Z.pow2_bits_false by lia. now rewrite xorb_false_r.
  - rewrite Z.ones_spec_high by lia. now rewrite !andb_false_r.
Qed.
Lemma flip_sgn f x : known f -> inr f x -> Z.land (f_flip f x) (c_sign_mask f) = Z.lxor (Z.land x (c_sign_mask f)) (c_sign_mask f).
Proof.
  intros K Hx. destruct (masks f K) as [_ ->]. unfold f_flip. apply Z.bits_inj'. intros k Hk.
  rewrite Z.lxor_spec, !Z.land_spec, Z.lxor_spec. destruct (Z.testbit x k), (Z.testbit (2 ^ (fwidth f - 1)) k); reflexivity.
Qed.
Lemma sin_flip f x : known f -> inr f x -> sin256 f (f_flip f x) = f_flip f (sin256 f x).
Proof.
  intros K Hx. unfold sin256. cbv zeta. rewrite (flip_mag f x K Hx), (flip_sgn f x K Hx). unfold selected. cbv zeta.
  unfold f_flip. destruct (masks f K) as [_ E]. rewrite <- E.
  set (A := f_add f _ _). set (B := Z.land x _). set (C := i_slli f _ _). set (S := c_sign_mask f).
  rewrite (Z.lxor_assoc B S C), (Z.lxor_comm S C), !Z.lxor_assoc. reflexivity.
Qed.
Lemma cos_flip f x : known f -> inr f x -> cos256 f (f_flip f x) = cos256 f x.
Proof. intros K Hx. unfold cos256. cbv zeta. rewrite (flip_mag f x K Hx). reflexivity. Qed.

(** C61.  Whatever the array and its values (zeros, infinities and NaNs included), np.sin of elements that differ only in the sign bit differ
    only in the sign bit, np.cos of them are the same, for any two elements computed by the vector kernel. *)
Theorem C61_sin_odd : forall f libm numpy a out n m i j,
  known f -> scalar_fun f libm -> contiguous f a out n m -> in_groups f n i -> in_groups f n j ->
  elem f m a j = opp f (elem f m a i) ->
  let m' := TrigCall SIN f libm numpy a out n (fsize f) (fsize f) m in
  elem f m' out j = opp f (elem f m' out i).
Proof.
  intros f libm numpy a out n m i j K Hl C Hi Hj E m'. unfold m'.
  rewrite (body_answer SIN f (sin256 f) libm numpy a out n m i K eq_refl Hl C Hi), (body_answer SIN f (sin256 f) libm numpy a out n m j K eq_refl Hl C Hj).
  destruct C as (_ & Hm & _). pose proof (elem_in f m a i K Hm) as X. rewrite E, (opp_flip f _ K X), sin_flip by assumption.
  symmetry. apply opp_flip; [assumption|]. now apply sin_in.
Qed.
Theorem C61_cos_even : forall f libm numpy a out n m i j,
  known f -> scalar_fun f libm -> contiguous f a out n m -> in_groups f n i -> in_groups f n j ->
  elem f m a j = opp f (elem f m a i) ->
  let m' := TrigCall COS f libm numpy a out n (fsize f) (fsize f) m in
  elem f m' out j = elem f m' out i.
Proof.
  intros f libm numpy a out n m i j K Hl C Hi Hj E m'. unfold m'.
  rewrite (body_answer COS f (cos256 f) libm numpy a out n m i K eq_refl Hl C Hi), (body_answer COS f (cos256 f) libm numpy a out n m j K eq_refl Hl C Hj).
  destruct C as (_ & Hm & _). pose proof (elem_in f m a i K Hm) as X. rewrite E, (opp_flip f _ K X). now apply cos_flip.
Qed.
Print Assumptions C61_sin_odd.

Lemma eight_apart f n : known f -> n = 9 -> outs_separate (fsize f) 8192 (fsize f) n /\ no_clobber (fsize f) 4096 (fsize f) 8192 (fsize f) n.
Proof.
  intros K ->. split.
  - intros i j Hi Hj Hne. unfold disj. destruct K as [-> | ->]; [change (fsize FLT) with 4|change (fsize DBL) with 8]; lia.
  - intros i j Hj Hi. unfold disj. destruct K as [-> | ->]; [change (fsize FLT) with 4|change (fsize DBL) with 8]; lia.
Qed.
(** nine float32, alternately 1.0 and -1.0, at 4096; the answers go to 8192 *)
Definition ones_mem : bytes := fun b => if b mod 8 =? 3 then 63 else if b mod 8 =? 7 then 191 else if b mod 4 =? 2 then 128 else 0.
Example C61_nonvacuous : contiguous FLT 4096 8192 9 ones_mem /\ in_groups FLT 9 0 /\ in_groups FLT 9 1 /\ scalar_fun FLT (fun x => x) /\
  elem FLT ones_mem 4096 1 = opp FLT (elem FLT ones_mem 4096 0) /\
  elem FLT (TrigCall SIN FLT (fun x => x) (fun _ _ _ _ _ m => m) 4096 8192 9 4 4 ones_mem) 8192 0 = 1062693540 (* 0.84147096 *) /\
  elem FLT (TrigCall COS FLT (fun x => x) (fun _ _ _ _ _ m => m) 4096 8192 9 4 4 ones_mem) 8192 1 = 1057640768 (* 0.54030228 *).
Proof.
  destruct (eight_apart FLT 9 ltac:(now left) eq_refl) as [A B].
  split; [split; [lia|]; split; [|split; assumption]; intros b; unfold ones_mem; destruct (b mod 8 =? 3), (b mod 8 =? 7), (b mod 4 =? 2); lia|].
  split; [split; vm_compute; congruence|]. split; [split; vm_compute; congruence|]. split; [intros x Hx; exact Hx|].
  split; [vm_compute; reflexivity|]. split; vm_compute; reflexivity.
Qed.

(** ---------- C58: special values ---------- *)
Lemma exp_clamp f x y : f_max f (f_min f x (exp_hi f)) (exp_lo f) = f_max f (f_min f y (exp_hi f)) (exp_lo f) -> exp256 f x = exp256 f y.
Proof. intros E. unfold exp256. rewrite E. reflexivity. Qed.
(** what the vector kernel answers beyond its clamps and below its smallest normal number *)
Definition exp_top (f : fmt) : Z := if isF f then 2134181028 (* 2.40e38 *) else 9788187424127149114 (* -1.06e-270 *).
Definition exp_bot (f : fmt) : Z := if isF f then 0 else 8639769555533385814 (* 3.77e269 *).
Definition log_bot (f : fmt) : Z := if isF f then 3266227280 (* -87.34 *) else 13877321021588676101 (* -1417.5 *).
Definition log_top (f : fmt) : Z := if isF f then 1118925336 (* 88.72 *) else 4604418534313442268 (* 0.693 *).
Lemma exp_top_is f : known f -> exp256 f (exp_hi f) = exp_top f.
Proof. intros K. unfold exp_hi. rewrite <- (fexp_ok f K), <- (flit_ok f K) by lia. destruct K as [-> | ->]; vm_compute; reflexivity. Qed.
Lemma exp_bot_is f : known f -> exp256 f (exp_lo f) = exp_bot f.
Proof. intros K. unfold exp_lo. rewrite <- (fexp_ok f K), <- (flit_ok f K) by lia. destruct K as [-> | ->]; vm_compute; reflexivity. Qed.
Lemma log_bot_is f : known f -> log256 f (c_min_norm_pos f) = log_bot f.
Proof. intros K. rewrite <- (flog_ok f K). destruct K as [-> | ->]; vm_compute; reflexivity. Qed.
Lemma log_top_is f : known f -> log256 f (finf f) = log_top f.
Proof. intros K. rewrite <- (flog_ok f K). destruct K as [-> | ->]; vm_compute; reflexivity. Qed.
Lemma hi_facts f : known f -> ~ fnan f (exp_hi f) /\ ~ fnan f (exp_lo f) /\ fval f (exp_hi f) < 89 * one_val f /\ - 89 * one_val f < fval f (exp_lo f) /\
  fval f (exp_lo f) < fval f (exp_hi f).
Proof.
  intros K. pose proof (class_nan f K (exp_hi f)) as A. pose proof (class_nan f K (exp_lo f)) as B.
  destruct K as [-> | ->]; (repeat split; [intros C; apply A in C; vm_compute in C; congruence|intros C; apply B in C; vm_compute in C; congruence|..]; vm_compute; reflexivity).
Qed.
Lemma lt_iff f x y : known f -> f_lt f x y = true <-> ~ fnan f x /\ ~ fnan f y /\ fval f x < fval f y.
Proof. intros K. exact (fops_holds f (kb f K) (kw f K) CMP_LT x y). Qed.
Lemma gt_iff f x y : known f -> f_gt f x y = true <-> ~ fnan f x /\ ~ fnan f y /\ fval f x > fval f y.
Proof. intros K. exact (fops_holds f (kb f K) (kw f K) CMP_GT x y). Qed.
Lemma le_iff f x y : known f -> f_le f x y = true <-> ~ fnan f x /\ ~ fnan f y /\ fval f x <= fval f y.
Proof. intros K. exact (fops_holds f (kb f K) (kw f K) CMP_LTE x y). Qed.
Lemma bool_false (b : bool) (P : Prop) : (b = true <-> P) -> ~ P -> b = false.
Proof. destruct b; intuition. Qed.
Lemma bool_true (b : bool) (P : Prop) : (b = true <-> P) -> P -> b = true.
Proof. tauto. Qed.

Lemma exp_large f x : known f -> fnan f x \/ 89 * one_val f <= fval f x -> exp256 f x = exp_top f.
Proof.
  intros K H. rewrite <- exp_top_is by assumption. apply exp_clamp. f_equal. destruct (hi_facts f K) as (H1 & H2 & H3 & H4 & H5).
  unfold f_min. rewrite (bool_false _ _ (lt_iff f x (exp_hi f) K)) by (intros (? & ? & ?); destruct H; [tauto|lia]).
  now destruct (f_lt f (exp_hi f) (exp_hi f)).
Qed.
Lemma exp_small f x : known f -> ~ fnan f x -> fval f x <= - 89 * one_val f -> exp256 f x = exp_bot f.
Proof.
  intros K N H. rewrite <- exp_bot_is by assumption. apply exp_clamp. destruct (hi_facts f K) as (H1 & H2 & H3 & H4 & H5).
  unfold f_min. rewrite (bool_true _ _ (lt_iff f x (exp_hi f) K)) by (repeat split; try assumption; lia). rewrite (bool_true _ _ (lt_iff f (exp_lo f) (exp_hi f) K)) by tauto.
  unfold f_max. rewrite (bool_false _ _ (gt_iff f x (exp_lo f) K)) by (intros (? & ? & ?); lia). now destruct (f_gt f (exp_lo f) (exp_lo f)).
Qed.
Lemma log_body_same f x y : f_max f x (c_min_norm_pos f) = f_max f y (c_min_norm_pos f) -> f_le f x 0 = f_le f y 0 -> log256 f x = log256 f y.
Proof. intros E1 E2. unfold log256. rewrite E1, E2. reflexivity. Qed.
Lemma min_facts f : known f -> ~ fnan f (c_min_norm_pos f) /\ 0 < fval f (c_min_norm_pos f).
Proof.
  intros K. pose proof (class_nan f K (c_min_norm_pos f)) as A. split; [|destruct K as [-> | ->]; vm_compute; reflexivity].
  intros C; apply A in C. destruct K as [-> | ->]; vm_compute in C; congruence.
Qed.
Lemma fval0 f : known f -> fval f 0 = 0 /\ ~ fnan f 0.
Proof. intros K. destruct (zero_facts f K) as (A & B & C). split; [exact C|]. intros N. apply (class_nan f K) in N. congruence. Qed.
Lemma log_small f x : known f -> fnan f x \/ 0 < fval f x <= fval f (c_min_norm_pos f) -> log256 f x = log_bot f.
Proof.
  intros K H. rewrite <- log_bot_is by assumption. destruct (min_facts f K) as [N P]. destruct (fval0 f K) as [V0 N0]. apply log_body_same.
  - unfold f_max. rewrite (bool_false _ _ (gt_iff f x (c_min_norm_pos f) K)) by (intros (? & ? & ?); destruct H; [tauto|lia]).
    now destruct (f_gt f (c_min_norm_pos f) (c_min_norm_pos f)).
  - rewrite (bool_false _ _ (le_iff f x 0 K)) by (intros (? & ? & ?); destruct H; [tauto|lia]). rewrite (bool_false _ _ (le_iff f (c_min_norm_pos f) 0 K)) by (intros (? & ? & ?); lia). reflexivity.
Qed.
Lemma ones_is f : ones f = Z.ones (fwidth f).
Proof. unfold ones. rewrite Z.ones_equiv. lia. Qed.
Lemma ones_nan f y : known f -> inr f y -> Z.lor y (ones f) = ones f /\ fnan f (ones f).
Proof.
  intros K Hy. split.
  - rewrite ones_is. apply Z.bits_inj'. intros k Hk. rewrite Z.lor_spec.
    pose proof (fw_pos f K). destruct (Z_lt_ge_dec k (fwidth f)).
    + rewrite Z.ones_spec_low by lia. now rewrite orb_true_r.
    + rewrite (bits_high (fwidth f)) by (unfold inr in *; lia). reflexivity.
  - apply (class_nan f K). destruct K as [-> | ->]; vm_compute; reflexivity.
Qed.
Lemma log_neg f x : known f -> inr f x -> ~ fnan f x -> fval f x <= 0 -> log256 f x = ones f.
Proof.
  intros K Hx N H. destruct (fval0 f K) as [V0 N0]. pose proof (bool_true _ _ (le_iff f x 0 K) ltac:(rewrite V0; tauto)) as LE.
  pose proof (log_in f x K Hx) as IN. unfold log256 in *. cbv zeta in *. rewrite LE in *. cbn [mask] in *.
  match goal with |- Z.lor ?y _ = _ => set (Y := y) in * end.
  apply Z.bits_inj'. intros k Hk. pose proof (fw_pos f K). rewrite Z.lor_spec. destruct (Z_lt_ge_dec k (fwidth f)).
  - rewrite ones_is, Z.ones_spec_low by lia. now rewrite orb_true_r.
  - rewrite <- Z.lor_spec. rewrite (bits_high (fwidth f)) by (unfold inr in *; lia). symmetry. apply (bits_high (fwidth f)); try lia.
    apply (mask_in f true K).
Qed.

(** C58, what np.exp and np.log answer for every element of the vector groups of every array.  exp: a NaN and any number
    from 89 up, infinity included, get one finite number; any number from -89 down, minus infinity included, gets one
    finite number (for float32 it is 0.0). *)
Theorem C58_exp_values : forall f libm numpy a out n m i,
  known f -> scalar_fun f libm -> contiguous f a out n m -> in_groups f n i ->
  let x := elem f m a i in
  let r := elem f (TrigCall EXP f libm numpy a out n (fsize f) (fsize f) m) out i in
  (fnan f x \/ 89 * one_val f <= fval f x -> r = exp_top f) /\
  (~ fnan f x /\ fval f x <= - 89 * one_val f -> r = exp_bot f).
Proof.
  intros f libm numpy a out n m i K Hl C G x r. unfold r. rewrite (body_answer EXP f (exp256 f) libm numpy a out n m i K eq_refl Hl C G). fold x.
  split; [now apply exp_large|intros [A B]; now apply exp_small].
Qed.
(** log: a NaN and any positive number below the normal ones get one finite number; zeros, negative numbers and minus
    infinity get a NaN; infinity gets one finite number. *)
Theorem C58_log_values : forall f libm numpy a out n m i,
  known f -> scalar_fun f libm -> contiguous f a out n m -> in_groups f n i ->
  let x := elem f m a i in
  let r := elem f (TrigCall LOG f libm numpy a out n (fsize f) (fsize f) m) out i in
  (fnan f x \/ (0 < fval f x <= fval f (2 ^ fbits f)) -> r = log_bot f) /\
  (~ fnan f x /\ fval f x <= 0 -> fnan f r) /\
  (x = finf f -> r = log_top f).
Proof.
  intros f libm numpy a out n m i K Hl C G x r. unfold r. rewrite (body_answer LOG f (log256 f) libm numpy a out n m i K eq_refl Hl C G). fold x.
  assert (X : inr f x) by (apply elem_in; [assumption|apply C]).
  assert (E : 2 ^ fbits f = c_min_norm_pos f) by (destruct K as [-> | ->]; reflexivity). rewrite E. split; [|split].
  - now apply log_small.
  - intros [A B]. rewrite log_neg by assumption. apply (ones_nan f 0 K). now apply zero_in.
  - intros ->. now apply log_top_is.
Qed.
Print Assumptions C58_exp_values.
Print Assumptions C58_log_values.
(** the constants are finite numbers; the float64 ones for exp have the wrong sign and the wrong size *)
Lemma finite_const f : known f -> finite_p f (exp_top f) /\ finite_p f (exp_bot f) /\ finite_p f (log_top f) /\ finite_p f (log_bot f).
Proof.
  intros K. assert (D : forall x, fexp f x <> emax f -> finite_p f x) by (intros x H; exact H).
  repeat split; apply D; destruct K as [-> | ->]; vm_compute; discriminate.
Qed.

(** C58 holds for np.log of negative numbers, and for float32 np.exp of minus infinity. *)
Theorem C58_holds_partial : forall f libm numpy a out n m i,
  known f -> scalar_fun f libm -> contiguous f a out n m -> in_groups f n i ->
  let x := elem f m a i in
  (~ fnan f x -> fval f x < 0 -> fnan f (elem f (TrigCall LOG f libm numpy a out n (fsize f) (fsize f) m) out i)) /\
  (f = FLT -> ~ fnan f x -> infinite_p f x -> fval f x < 0 -> elem f (TrigCall EXP f libm numpy a out n (fsize f) (fsize f) m) out i = 0).
Proof.
  intros f libm numpy a out n m i K Hl C G x. split.
  - intros N H. apply (C58_log_values f libm numpy a out n m i K Hl C G). fold x. split; [assumption|lia].
  - intros -> N I H. destruct (C58_exp_values FLT libm numpy a out n m i K Hl C G) as [_ E]. fold x in E. rewrite E; [reflexivity|]. split; [assumption|].
    destruct I as [I1 I2]. unfold fval in *. destruct (fneg FLT x); [|exfalso; revert H; unfold fabsval; rewrite I1, I2; vm_compute; discriminate].
    unfold fabsval. rewrite I1, I2. vm_compute. discriminate.
Qed.
(** C58 is false otherwise, for every such element: NaN and infinity do not come through, and log 0 is not -infinity *)
Theorem C58_refuted : forall f libm numpy a out n m i,
  known f -> scalar_fun f libm -> contiguous f a out n m -> in_groups f n i ->
  let x := elem f m a i in
  let e := elem f (TrigCall EXP f libm numpy a out n (fsize f) (fsize f) m) out i in
  let l := elem f (TrigCall LOG f libm numpy a out n (fsize f) (fsize f) m) out i in
  (fnan f x -> ~ fnan f e /\ ~ fnan f l) /\
  (x = finf f -> ~ infinite_p f e /\ ~ infinite_p f l) /\
  (x = 0 -> ~ infinite_p f l).
Proof.
  intros f libm numpy a out n m i K Hl C G x e l.
  destruct (C58_exp_values f libm numpy a out n m i K Hl C G) as [E1 E2]. destruct (C58_log_values f libm numpy a out n m i K Hl C G) as (L1 & L2 & L3).
  fold x e in E1, E2. fold x l in L1, L2, L3. destruct (finite_const f K) as (F1 & F2 & F3 & F4). unfold finite_p in *. split; [|split].
  - intros N. rewrite E1, L1 by tauto. unfold fnan. tauto.
  - intros E. rewrite L3 by assumption. rewrite E1; [unfold infinite_p; tauto|]. right. rewrite E. destruct K as [-> | ->]; vm_compute; discriminate.
  - intros E I. assert (N : fnan f l) by (apply L2; rewrite E; destruct (fval0 f K) as [-> ?]; split; [assumption|lia]). unfold fnan, infinite_p in *. tauto.
Qed.
(** hypotheses: nine NaNs; nine zeros *)
Example C58_nonvacuous : forall f, known f -> contiguous f 4096 8192 9 (fun _ => 255) /\ in_groups f 9 3 /\ fnan f (elem f (fun _ => 255) 4096 3) /\
  scalar_fun f (fun x => x) /\ exp_top f <> exp_bot f /\ elem f (fun _ => 0) 4096 3 = 0 /\ in_groups f 9 0 /\ ~ in_groups f 9 8.
Proof.
  intros f K. destruct (eight_apart f 9 K eq_refl) as [A B].
  split; [split; [lia|]; split; [intros b; lia|split; assumption]|].
  split; [destruct K as [-> | ->]; split; vm_compute; congruence|].
  split; [apply (class_nan f K); destruct K as [-> | ->]; vm_compute; reflexivity|].
  split; [intros x Hx; exact Hx|]. split; [destruct K as [-> | ->]; vm_compute; congruence|].
  split; [destruct K as [-> | ->]; vm_compute; reflexivity|].
  split; [destruct K as [-> | ->]; split; vm_compute; congruence|].
  destruct K as [-> | ->]; intros [_ C]; vm_compute in C; discriminate C.
Qed.

(** ---------- C62: does an answer depend on the position? ---------- *)
(** The kernel's own part: two elements of the groups, of any two calls, that hold the same pattern get the same
    answer; and two elements outside the groups get what libm answers.  What is missing from C62 is that the two
    agree: they do not. *)
Theorem C62_within_groups_partial : forall u f libm numpy a out n m i a2 out2 n2 m2 j,
  u = SIN \/ u = COS \/ u = EXP \/ u = LOG -> known f -> scalar_fun f libm ->
  contiguous f a out n m -> contiguous f a2 out2 n2 m2 -> 0 <= i < n -> 0 <= j < n2 ->
  elem f m a i = elem f m2 a2 j -> (in_groups f n i <-> in_groups f n2 j) ->
  elem f (TrigCall u f libm numpy a out n (fsize f) (fsize f) m) out i =
  elem f (TrigCall u f libm numpy a2 out2 n2 (fsize f) (fsize f) m2) out2 j.
Proof.
  intros u f libm numpy a out n m i a2 out2 n2 m2 j Hu K Hl C1 C2 Hi Hj E G.
  assert (exists lane, trig_lane u f = Some lane) as [lane HL] by (destruct Hu as [-> | [-> | [-> | ->]]]; eexists; reflexivity).
  assert (D : in_groups f n i \/ ~ in_groups f n i) by (unfold in_groups; lia).
  destruct D as [D|D].
  - rewrite (body_answer u f lane) by assumption. rewrite (body_answer u f lane) by tauto. now rewrite E.
  - rewrite (tail_answer u f lane) by assumption. rewrite (tail_answer u f lane) by tauto. now rewrite E.
Qed.
Print Assumptions C62_within_groups_partial.
(** C62 is false: nine float64 zeros.  np.exp answers 2^1023 for the first eight and, if libm's exp 0 is 1, 1 for the
    ninth; nine float32 NaN: np.exp answers the finite number 2.4e38 for the first eight and libm's answer for the
    ninth. *)
Theorem C62_refuted : forall libm numpy,
  (scalar_fun DBL libm -> libm 0 = f_one DBL ->
   let m' := TrigCall EXP DBL libm numpy 4096 8192 9 8 8 (fun _ => 0) in
   (forall i, 0 <= i < 8 -> fval DBL (elem DBL m' 8192 i) = 2 ^ 1023 * one_val DBL) /\ fval DBL (elem DBL m' 8192 8) = one_val DBL) /\
  (scalar_fun FLT libm -> fnan FLT (libm (2 ^ 32 - 1)) ->
   let m' := TrigCall EXP FLT libm numpy 4096 8192 9 4 4 (fun _ => 255) in
   (forall i, 0 <= i < 8 -> elem FLT m' 8192 i = 2134181028) /\ fnan FLT (elem FLT m' 8192 8)).
Proof.
  intros libm numpy. split.
  - intros Hl L m'. assert (K : known DBL) by now right. destruct (eight_apart DBL 9 K eq_refl) as [A B].
    assert (C : contiguous DBL 4096 8192 9 (fun _ => 0)) by (split; [lia|]; split; [intros b; lia|split; assumption]). split.
    + intros i Hi. unfold m'. change (TrigCall EXP DBL libm numpy 4096 8192 9 8 8) with (TrigCall EXP DBL libm numpy 4096 8192 9 (fsize DBL) (fsize DBL)).
      assert (G : in_groups DBL 9 i) by exact Hi. rewrite (body_answer EXP DBL (exp256 DBL) libm numpy 4096 8192 9 _ i K eq_refl Hl C G).
      replace (elem DBL (fun _ => 0) 4096 i) with 0 by reflexivity. rewrite <- (fexp_ok DBL K). vm_compute. reflexivity.
    + unfold m'. change (TrigCall EXP DBL libm numpy 4096 8192 9 8 8) with (TrigCall EXP DBL libm numpy 4096 8192 9 (fsize DBL) (fsize DBL)).
      rewrite (tail_answer EXP DBL (exp256 DBL) libm numpy 4096 8192 9 _ 8 K eq_refl Hl C); [|lia|intros [_ X]; vm_compute in X; discriminate X].
      replace (elem DBL (fun _ => 0) 4096 8) with 0 by reflexivity. rewrite L. reflexivity.
  - intros Hl L m'. assert (K : known FLT) by now left. destruct (eight_apart FLT 9 K eq_refl) as [A B].
    assert (C : contiguous FLT 4096 8192 9 (fun _ => 255)) by (split; [lia|]; split; [intros b; lia|split; assumption]). split.
    + intros i Hi. unfold m'. change (TrigCall EXP FLT libm numpy 4096 8192 9 4 4) with (TrigCall EXP FLT libm numpy 4096 8192 9 (fsize FLT) (fsize FLT)).
      assert (G : in_groups FLT 9 i) by exact Hi. rewrite (body_answer EXP FLT (exp256 FLT) libm numpy 4096 8192 9 _ i K eq_refl Hl C G).
      replace (elem FLT (fun _ => 255) 4096 i) with (2 ^ 32 - 1) by reflexivity. rewrite <- (fexp_ok FLT K). vm_compute. reflexivity.
    + unfold m'. change (TrigCall EXP FLT libm numpy 4096 8192 9 4 4) with (TrigCall EXP FLT libm numpy 4096 8192 9 (fsize FLT) (fsize FLT)).
      rewrite (tail_answer EXP FLT (exp256 FLT) libm numpy 4096 8192 9 _ 8 K eq_refl Hl C); [|lia|intros [_ X]; vm_compute in X; discriminate X].
      replace (elem FLT (fun _ => 255) 4096 8) with (2 ^ 32 - 1) by reflexivity. exact L.
Qed.

