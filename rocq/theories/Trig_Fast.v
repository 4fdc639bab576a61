(** Trig_Fast.v - proofs only: the operations of Arith_Model.v and the kernels of Trig_Model.v computed faster (the rounding
    guesses the answer and checks it), so that closed instances can be evaluated by the kernel. *)
From Verif Require Import Base Kernel_Model Float_Model Compare_Model Unary_Model Unary_Props UnaryVal_Props Round_Model Arith_Model Arith_Props Trig_Model.

Definition guess (f : fmt) (N D : Z) : Z :=
  let q := if Z.eqb D (Z.shiftl 1 (Z.log2 D)) then Z.shiftr N (Z.log2 D) else N / D in
  let L := Z.log2 q in
  if L <=? fbits f then q else Z.shiftl (L - fbits f) (fbits f) + Z.shiftr q (L - fbits f).
Definition fmv (f : fmt) (g : Z) : Z :=
  let e := Z.shiftr g (fbits f) in
  if e =? 0 then g else Z.shiftl (g - Z.shiftl (e - 1) (fbits f)) (e - 1).
Definition frnd (f : fmt) (N D : Z) : Z :=
  let g := guess f N D in
  let a := D * fmv f g in let b := D * fmv f (g + 1) in
  if (0 <=? g) && (g <? finf f) && (a <=? N) && (N <? b) then
    match 2 * N ?= a + b with Lt => g | Gt => g + 1 | Eq => if Z.even g then g else g + 1 end
  else rnd_mag f N D.

Section Fast.
  Variable f : fmt.
  Hypothesis K : known f.
  Lemma fmv_ok g : 0 <= g -> fmv f g = mag_value f g.
  Proof.
    intros Hg. unfold fmv, mag_value. assert (B : 0 <= fbits f) by (destruct K as [-> | ->]; discriminate).
    rewrite Z.shiftr_div_pow2 by exact B. set (P := 2 ^ fbits f). assert (HP : 0 < P) by (apply Z.pow_pos_nonneg; lia).
    pose proof (Z.div_pos g P Hg HP) as He. pose proof (Z.div_mod g P ltac:(lia)) as D. set (e := g / P) in *.
    destruct (Z.eqb_spec e 0) as [E|E]; [rewrite E in D; lia|].
    rewrite Z.shiftl_mul_pow2 by lia. rewrite Z.shiftl_mul_pow2 by exact B. fold P. f_equal. lia.
  Qed.
  Lemma frnd_ok N D : 0 <= N -> 0 < D -> frnd f N D = rnd_mag f N D.
  Proof.
    intros HN HD. unfold frnd. set (g := guess f N D). clearbody g. cbv zeta.
    destruct ((0 <=? g) && (g <? finf f) && (D * fmv f g <=? N) && (N <? D * fmv f (g + 1))) eqn:C; [|reflexivity].
    assert (Hg : 0 <= g) by lia. rewrite !fmv_ok in * by lia. unfold rnd_mag. set (k := Z.to_nat (fwidth f - 1)).
    destruct (inf_bound f K) as [[I1 I2] _].
    assert (Hk : Z.of_nat k = fwidth f - 1) by (unfold k; destruct K as [-> | ->]; reflexivity).
    pose proof (search_ok f N D k HN 0 ltac:(lia)) as S. cbv zeta in S. destruct S as (S1 & [S2 S3] & S4).
    { split; [lia|]. rewrite (mv_0 f K). lia. }
    { intros [X _]. rewrite Hk in X. lia. }
    set (r := search f N D k 0) in *. clearbody r.
    assert (E : r = g).
    { destruct (Z.lt_trichotomy r g) as [L|[L|L]]; [|exact L|]; exfalso.
      - apply S4. split; [lia|]. pose proof (mv_le f K (r + 1) g ltac:(lia)). nia.
      - pose proof (mv_le f K (g + 1) r ltac:(lia)). nia. }
    rewrite E. destruct (Z.leb_spec (finf f) g); [lia|]. rewrite !(Z.mul_comm D). reflexivity.
  Qed.
  Definition fadd (x y : Z) : Z :=
    if is_nan f x || is_nan f y then q_nan f
    else if is_inf f x then (if is_inf f y && xorb (fneg f x) (fneg f y) then q_nan f else x)
    else if is_inf f y then y
    else let a := fmv f (fmag f x) in let b := fmv f (fmag f y) in
         let s := (if fneg f x then - a else a) + (if fneg f y then - b else b) in
         if s =? 0 then put_sign f (fneg f x && fneg f y) 0
         else put_sign f (s <? 0) (frnd f (Z.abs s) 1).
  Definition fsub (x y : Z) : Z := fadd x (f_flip f y).
  Definition fmul (x y : Z) : Z :=
    if is_nan f x || is_nan f y then q_nan f
    else if (is_inf f x && is_zero f y) || (is_zero f x && is_inf f y) then q_nan f
    else let sg := xorb (fneg f x) (fneg f y) in
         if is_inf f x || is_inf f y then put_sign f sg (finf f)
         else put_sign f sg (frnd f (fmv f (fmag f x) * fmv f (fmag f y)) (fmv f (f_one f))).
  Definition flit (num den : Z) : Z := put_sign f (num <? 0) (frnd f (Z.abs num * fmv f (f_one f)) den).
  Lemma mag_nn x : 0 <= fmag f x.
  Proof. unfold fmag. apply Z.mod_pos_bound. apply Z.pow_pos_nonneg; [lia|]. destruct K as [-> | ->]; discriminate. Qed.
  Lemma one_nn : 0 <= f_one f /\ 0 < unit_value f.
  Proof. destruct K as [-> | ->]; vm_compute; split; congruence. Qed.
  Lemma fadd_ok x y : fadd x y = f_add f x y.
  Proof.
    unfold fadd, f_add, signed_value. cbv zeta. rewrite !fmv_ok by apply mag_nn. now rewrite frnd_ok by lia.
  Qed.
  Lemma fsub_ok x y : fsub x y = f_sub f x y.
  Proof. apply fadd_ok. Qed.
  Lemma fmul_ok x y : fmul x y = f_mul f x y.
  Proof.
    unfold fmul, f_mul. cbv zeta. destruct one_nn as [O1 O2]. rewrite !fmv_ok by (try apply mag_nn; exact O1). change (mag_value f (f_one f)) with (unit_value f).
    rewrite frnd_ok; [reflexivity| |exact O2]. apply Z.mul_nonneg_nonneg; apply (mv_nonneg f K), mag_nn.
  Qed.
  Lemma flit_ok num den : 0 < den -> flit num den = lit f num den.
  Proof.
    intros Hd. unfold flit, lit. destruct one_nn as [O1 O2]. rewrite fmv_ok by exact O1. change (mag_value f (f_one f)) with (unit_value f).
    rewrite frnd_ok; [reflexivity| |exact Hd]. apply Z.mul_nonneg_nonneg; lia.
  Qed.
  Definition fhorner (x c0 : Z) (cs : list Z) : Z := fold_left (fun y c => fadd (fmul y x) c) cs c0.
  Lemma fhorner_ok x cs : forall c0, fhorner x c0 cs = horner f x c0 cs.
  Proof. induction cs as [|c cs IH]; intros c0; cbn [fhorner horner fold_left] in *; [reflexivity|]. unfold fhorner, horner in *. cbn [fold_left]. rewrite fmul_ok, fadd_ok. apply IH. Qed.

  (** the kernels, letter by letter *)
  Definition fmagic : Z := flit 6755399441055744 1.
  Definition fto_int (x : Z) : Z := if isF f then cvttps_epi32 x else i_subl f (fadd x fmagic) fmagic.
  Definition fof_int (x : Z) : Z := if isF f then flit (sval 32 x) 1 else fsub (i_addl f x fmagic) fmagic.
  Lemma fto_int_ok x : fto_int x = to_int f x.
  Proof.
    unfold fto_int, to_int, fmagic. rewrite fadd_ok, flit_ok by lia. destruct K as [-> | ->]; reflexivity.
  Qed.
  Lemma fof_int_ok x : fof_int x = of_int f x.
  Proof.
    unfold fof_int, of_int, fmagic. rewrite fsub_ok, !flit_ok by lia. destruct K as [-> | ->]; reflexivity.
  Qed.
  Definition flog256 (x0 : Z) : Z :=
    let one := flit 1 1 in
    let invalid_mask := mask f (f_le f x0 0) in
    let x := f_max f x0 (c_min_norm_pos f) in
    let imm0 := i_srli f x (mant_shift f) in
    let x := Z.lor (Z.land x (c_inv_mant_mask f)) (flit 1 2) in
    let e := fof_int (i_subl f imm0 (c_0x7f f)) in
    let e := fadd e one in
    let m := mask f (f_lt f x (flit 707106781186547524 (10 ^ 18))) in
    let tmp := Z.land x m in
    let x := fsub x one in
    let e := fsub e (Z.land one m) in
    let x := fadd x tmp in
    let z := fmul x x in
    let y := fmul (fhorner x (flit 70376836292 (10 ^ 12))
      [flit (-11514610310) (10 ^ 11); flit 11676998740 (10 ^ 11); flit (-12420140846) (10 ^ 11); flit 14249322787 (10 ^ 11);
       flit (-16668057665) (10 ^ 11); flit 20000714765 (10 ^ 11); flit (-24999993993) (10 ^ 11); flit 33333331174 (10 ^ 11)]) x in
    let y := fmul y z in
    let y := fadd y (fmul e (flit (-212194440) (10 ^ 12))) in
    let y := fsub y (fmul z (flit 1 2)) in
    let tmp := fmul e (flit 693359375 (10 ^ 9)) in
    let x := fadd x y in
    let x := fadd x tmp in
    Z.lor x invalid_mask.
  Definition fexp256 (x0 : Z) : Z :=
    let one := flit 1 1 in
    let x := f_max f (f_min f x0 (flit 883762626647949 (10 ^ 13))) (flit (-883762626647949) (10 ^ 13)) in
    let fx := fadd (fmul x (flit 144269504088896341 (10 ^ 17))) (flit 1 2) in
    let tmp := f_round TowardMinus f fx in
    let m := Z.land (mask f (f_gt f tmp fx)) one in
    let fx := fsub tmp m in
    let tmp := fmul fx (flit 693359375 (10 ^ 9)) in
    let z := fmul fx (flit (-212194440) (10 ^ 12)) in
    let x := fsub (fsub x tmp) z in
    let z := fmul x x in
    let y := fhorner x (flit 19875691500 (10 ^ 14))
      [flit 13981999507 (10 ^ 13); flit 83334519073 (10 ^ 13); flit 41665795894 (10 ^ 12); flit 16666665459 (10 ^ 11);
       flit 50000001201 (10 ^ 11)] in
    let y := fadd (fadd (fmul y z) x) one in
    let imm0 := i_slli f (i_addl f (fto_int fx) (c_0x7f f)) (mant_shift f) in
    fmul y imm0.
  Ltac fast := rewrite ?fhorner_ok, ?fof_int_ok, ?fto_int_ok, ?fsub_ok, ?fadd_ok, ?fmul_ok, ?flit_ok by reflexivity.
  Ltac lets := repeat match goal with
    |- (let x := ?a in @?F x) = (let y := ?b in @?G y) =>
      let E := fresh in assert (E : a = b) by (fast; reflexivity);
      change (F a = G b); rewrite E; generalize b; clear E; let v := fresh "v" in intro v; cbv beta end.
  Lemma fexp_ok x0 : fexp256 x0 = exp256 f x0.
  Proof. unfold fexp256, exp256, exp_hi, exp_lo, c_LOG2EF, exp_C1, exp_C2, exp_p0, exp_ps, c_one, c_0p5. lets. fast. reflexivity. Qed.
  Lemma flog_ok x0 : flog256 x0 = log256 f x0.
  Proof. unfold flog256, log256, c_SQRTHF, log_p0, log_ps, log_q1, log_q2, c_one, c_0p5. lets. fast. reflexivity. Qed.
End Fast.
