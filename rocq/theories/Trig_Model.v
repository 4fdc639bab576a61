(** Trig_Model.v - np.exp, np.log, np.sin, np.cos on float32/float64.
    src/atop/avx_mathfun.h 70-131 (constants and conversions), 177-246 and 251-320 (log), 354-407 and 411-465 (exp),
    506-601 and 781-874 (sin), 604-690 and 877-962 (cos); src/atop/ops_trig.cpp 56-92 (scalar operations), 137-144
    (lanes), 230-285 (UnaryOpFast), 579-597 and below (GetTrigOpFast); call site AtopTrigMathFunction
    src/pnumpy/_pnumpy.cpp:938-996; hook loop 1492-1547 (float32 and float64).

    A lane is a bit pattern (Float_Model.v); + - * are the IEEE operations of Arith_Model.v (round to nearest even, no
    FMA), min/max the SSE ones, and/or/xor bitwise on patterns, masks all ones or zero.  The float and double versions
    have the same text up to the constants and the conversions; [f] picks the version.  The scalar operations (libm expf, exp, ...) are
    parameters: what libm answers is not modelled.  Simplified as in Arith_Model.v: NaN payloads.
    On gcc only SIN, COS, EXP and LOG have kernels (the others are #if RT_COMPILER_MSVC, ops_trig.cpp:598 on): those
    run NumPy's loop. *)
From Verif Require Import Base Kernel_Model Float_Model Compare_Model Unary_Model Round_Model Arith_Model.

(** a decimal literal num/den, rounded to nearest by the compiler: _PS256_CONST, _PS256d_CONST, 62-68 *)
Definition lit (f : fmt) (num den : Z) : Z := put_sign f (num <? 0) (rnd_mag f (Z.abs num * unit_value f) den).
Definition ones (f : fmt) : Z := 2 ^ fwidth f - 1.
Definition mask (f : fmt) (b : bool) : Z := if b then ones f else 0.      (* _mm256_cmp_ps, _mm256_cmpeq_epi32 *)
Definition isF (f : fmt) : bool := fwidth f =? 32.

(** 70-108 *)
Definition c_one (f : fmt) : Z := lit f 1 1.
Definition c_0p5 (f : fmt) : Z := lit f 1 2.
Definition c_min_norm_pos (f : fmt) : Z := if isF f then 8388608 (* 0x00800000 *) else 4503599627370496 (* 0x0010000000000000 *).
Definition c_inv_mant_mask (f : fmt) : Z := if isF f then 2155872255 (* 0x807fffff *) else 9227875636482146303 (* 0x800fffffffffffff *).
Definition c_sign_mask (f : fmt) : Z := if isF f then 2147483648 else 9223372036854775808.
Definition c_inv_sign_mask (f : fmt) : Z := if isF f then 2147483647 else 9223372036854775807.
Definition c_0x7f (f : fmt) : Z := if isF f then 127 (* 0x7f *) else 2046 (* 0x7fe, line 108 *).
Definition mant_shift (f : fmt) : Z := if isF f then 23 else 52.
Definition c_inv1 (f : fmt) : Z := ones f - 1.                             (* ~1 *)

(** integer lanes *)
Definition i_addl (f : fmt) (x y : Z) : Z := (x + y) mod 2 ^ fwidth f.     (* _mm256_add_epi32/64 *)
Definition i_subl (f : fmt) (x y : Z) : Z := (x - y) mod 2 ^ fwidth f.     (* _mm256_sub_epi32/64 *)
Definition i_slli (f : fmt) (x k : Z) : Z := (x * 2 ^ k) mod 2 ^ fwidth f. (* _mm256_slli_epi32/64 *)
Definition i_srli (f : fmt) (x k : Z) : Z := x / 2 ^ k.                    (* _mm256_srli_epi32/64 *)
Definition andnot (f : fmt) (m x : Z) : Z := Z.land (ones f - m) x.        (* _mm256_andnot: ~m & x *)

(** _mm256_cvttps_epi32: truncation, 0x80000000 for NaN and out of range; _mm256_cvtepi32_ps: to nearest *)
Definition cvttps_epi32 (x : Z) : Z :=
  let v := Z.quot (signed_value FLT x) (unit_value FLT) in
  if is_nan FLT x || is_inf FLT x || (v <? - 2 ^ 31) || (2 ^ 31 - 1 <? v) then 2147483648 else v mod 2 ^ 32.
Definition cvtepi32_ps (x : Z) : Z := lit FLT (sval 32 x) 1.
(** double_to_int64, int64_to_double, 111-124: 0x0018000000000000 converted to double *)
Definition magic : Z := lit DBL 6755399441055744 1.
Definition double_to_int64 (x : Z) : Z := i_subl DBL (f_add DBL x magic) magic.
Definition int64_to_double (x : Z) : Z := f_sub DBL (i_addl DBL x magic) magic.
Definition to_int (f : fmt) : Z -> Z := if isF f then cvttps_epi32 else double_to_int64.
Definition of_int (f : fmt) : Z -> Z := if isF f then cvtepi32_ps else int64_to_double.

(** y = c0; then y = y * x + c for each further constant *)
Definition horner (f : fmt) (x c0 : Z) (cs : list Z) : Z := fold_left (fun y c => f_add f (f_mul f y x) c) cs c0.

(** ---------- natural log, 143-320 ---------- *)
Definition c_SQRTHF (f : fmt) := lit f 707106781186547524 (10 ^ 18).
Definition log_p0 (f : fmt) := lit f 70376836292 (10 ^ 12).
Definition log_ps (f : fmt) : list Z :=
  [lit f (-11514610310) (10 ^ 11); lit f 11676998740 (10 ^ 11); lit f (-12420140846) (10 ^ 11); lit f 14249322787 (10 ^ 11);
   lit f (-16668057665) (10 ^ 11); lit f 20000714765 (10 ^ 11); lit f (-24999993993) (10 ^ 11); lit f 33333331174 (10 ^ 11)].
Definition log_q1 (f : fmt) := lit f (-212194440) (10 ^ 12).
Definition log_q2 (f : fmt) := lit f 693359375 (10 ^ 9).
Definition log256 (f : fmt) (x0 : Z) : Z :=
  let one := c_one f in
  let invalid_mask := mask f (f_le f x0 0) in                              (* _CMP_LE_OS *)
  let x := f_max f x0 (c_min_norm_pos f) in
  let imm0 := i_srli f x (mant_shift f) in
  let x := Z.lor (Z.land x (c_inv_mant_mask f)) (c_0p5 f) in
  let e := of_int f (i_subl f imm0 (c_0x7f f)) in
  let e := f_add f e one in
  let m := mask f (f_lt f x (c_SQRTHF f)) in
  let tmp := Z.land x m in
  let x := f_sub f x one in
  let e := f_sub f e (Z.land one m) in
  let x := f_add f x tmp in
  let z := f_mul f x x in
  let y := f_mul f (horner f x (log_p0 f) (log_ps f)) x in
  let y := f_mul f y z in
  let y := f_add f y (f_mul f e (log_q1 f)) in
  let y := f_sub f y (f_mul f z (c_0p5 f)) in
  let tmp := f_mul f e (log_q2 f) in
  let x := f_add f x y in
  let x := f_add f x tmp in
  Z.lor x invalid_mask.

(** ---------- exponent, 325-465 ---------- *)
Definition exp_hi (f : fmt) := lit f 883762626647949 (10 ^ 13).
Definition exp_lo (f : fmt) := lit f (-883762626647949) (10 ^ 13).
Definition c_LOG2EF (f : fmt) := lit f 144269504088896341 (10 ^ 17).
Definition exp_C1 (f : fmt) := lit f 693359375 (10 ^ 9).
Definition exp_C2 (f : fmt) := lit f (-212194440) (10 ^ 12).
Definition exp_p0 (f : fmt) := lit f 19875691500 (10 ^ 14).
Definition exp_ps (f : fmt) : list Z :=
  [lit f 13981999507 (10 ^ 13); lit f 83334519073 (10 ^ 13); lit f 41665795894 (10 ^ 12); lit f 16666665459 (10 ^ 11);
   lit f 50000001201 (10 ^ 11)].
Definition exp256 (f : fmt) (x0 : Z) : Z :=
  let one := c_one f in
  let x := f_max f (f_min f x0 (exp_hi f)) (exp_lo f) in
  let fx := f_add f (f_mul f x (c_LOG2EF f)) (c_0p5 f) in
  let tmp := f_round TowardMinus f fx in                                   (* _mm256_floor_ps *)
  let m := Z.land (mask f (f_gt f tmp fx)) one in
  let fx := f_sub f tmp m in
  let tmp := f_mul f fx (exp_C1 f) in
  let z := f_mul f fx (exp_C2 f) in
  let x := f_sub f (f_sub f x tmp) z in
  let z := f_mul f x x in
  let y := horner f x (exp_p0 f) (exp_ps f) in
  let y := f_add f (f_add f (f_mul f y z) x) one in
  let imm0 := i_slli f (i_addl f (to_int f fx) (c_0x7f f)) (mant_shift f) in
  f_mul f y imm0.

(** ---------- sin and cos, 470-492, 506-690, 781-962 ---------- *)
Definition m_DP1 (f : fmt) := lit f (-78515625) (10 ^ 8).
Definition m_DP2 (f : fmt) := lit f (-24187564849853515625) (10 ^ 23).
Definition m_DP3 (f : fmt) := lit f (-377489497744594108) (10 ^ 25).
Definition sin_p0 (f : fmt) := lit f (-19515295891) (10 ^ 14).
Definition sin_ps (f : fmt) := [lit f 83321608736 (10 ^ 13); lit f (-16666654611) (10 ^ 11)].
Definition cos_p0 (f : fmt) := lit f 2443315711809948 (10 ^ 20).
Definition cos_ps (f : fmt) := [lit f (-1388731625493765) (10 ^ 18); lit f 4166664568298827 (10 ^ 17)].
Definition c_FOPI (f : fmt) := lit f 127323954473516 (10 ^ 14).
Definition sign_shift (f : fmt) : Z := if isF f then 29 else 32 + 29.

(** j = (int(|x| * 4/Pi) + 1) & ~1 *)
Definition octant (f : fmt) (ax : Z) : Z := Z.land (i_addl f (to_int f (f_mul f ax (c_FOPI f))) 1) (c_inv1 f).
(** the extended precision pass: ((x + y * -DP1) + y * -DP2) + y * -DP3 *)
Definition reduced (f : fmt) (ax y : Z) : Z :=
  f_add f (f_add f (f_add f ax (f_mul f y (m_DP1 f))) (f_mul f y (m_DP2 f))) (f_mul f y (m_DP3 f)).
Definition cos_poly (f : fmt) (z : Z) : Z :=
  let y := f_mul f (f_mul f (horner f z (cos_p0 f) (cos_ps f)) z) z in
  f_add f (f_sub f y (f_mul f z (c_0p5 f))) (c_one f).
Definition sin_poly (f : fmt) (x z : Z) : Z :=
  let y2 := f_mul f (horner f z (sin_p0 f) (sin_ps f)) z in
  f_add f (f_mul f y2 x) x.
(** both polynomials, one kept by the mask, then the sign *)
Definition selected (f : fmt) (x poly_mask sign : Z) : Z :=
  let z := f_mul f x x in
  let y2 := Z.land poly_mask (sin_poly f x z) in
  let y := andnot f poly_mask (cos_poly f z) in
  Z.lxor (f_add f y y2) sign.
Definition sin256 (f : fmt) (x0 : Z) : Z :=
  let x := Z.land x0 (c_inv_sign_mask f) in
  let sign_bit := Z.land x0 (c_sign_mask f) in
  let j := octant f x in
  let y := of_int f j in
  let imm0 := i_slli f (Z.land j 4) (sign_shift f) in
  let poly_mask := mask f (Z.land j 2 =? 0) in
  selected f (reduced f x y) poly_mask (Z.lxor sign_bit imm0).
Definition cos256 (f : fmt) (x0 : Z) : Z :=
  let x := Z.land x0 (c_inv_sign_mask f) in
  let j := octant f x in
  let y := of_int f j in
  let j := i_subl f j 2 in
  let imm0 := i_slli f (andnot f j 4) (sign_shift f) in
  let poly_mask := mask f (Z.land j 2 =? 0) in
  selected f (reduced f x y) poly_mask imm0.

(** ---------- dispatch and call ---------- *)
Inductive top := SIN | COS | TAN | EXP | LOG | LOG2.
(** GetTrigOpFast, ops_trig.cpp:579 on, gcc: TAN stands for the operations without a kernel *)
Definition trig_lane (u : top) (f : fmt) : option (Z -> Z) :=
  match u with
  | SIN => Some (sin256 f) | COS => Some (cos256 f) | EXP => Some (exp256 f) | LOG => Some (log256 f)
  | _ => None
  end.
(** AtopTrigMathFunction 938-960, unthreaded.  [libm]: the scalar operation; [numpy]: NumPy's loop, used when strideOut
    is 0 or there is no kernel.  UnaryOpFast of ops_trig.cpp:230-285 has the text of ops_unary.cpp:328-378. *)
Definition TrigCall (u : top) (f : fmt) (libm : Z -> Z) (numpy : ufun) : ufun := fun a out n s so m =>
  match trig_lane u f with
  | Some lane => if so =? 0 then numpy a out n s so m else UnaryOpFast (fwidth f / 8) libm lane a out n s so m
  | None => numpy a out n s so m
  end.
