(** Unary_Model.v - unary ufuncs: src/atop/ops_unary.cpp (operations 183-305, loops 326-1013, dispatch 1251-1780)
    and the call site AtopUnaryMathFunction, src/pnumpy/_pnumpy.cpp:874-925 (unthreaded branch) with the choice of
    the replacement loop at 1459-1463.

    Memory, registers and intrinsics as in Kernel_Model.v and Compare_Model.v; floats are bit patterns
    (Float_Model.v).  Not modelled here: sqrt, floor, ceil, trunc (rounding), long double. *)
From Verif Require Import Base Kernel_Model Float_Model Compare_Model.

Definition ufun := Z -> Z -> Z -> Z -> Z -> bytes -> bytes.   (* in out len strideIn strideOut *)

(** ---------- scalar loops ---------- *)
(** while (pOut != pLastOut) { pOut[0] = MATH_OP(pIn[0]); ... }: UnaryOpSlow 935-947, UnaryOpSlowBool 973-985, and the end
    of every vectorised function.  [szo]: size of the output item *)
Definition slow (sz szo : Z) (op : Z -> Z) : ufun := fun a out n s so m =>
  fold_left (fun m i => st szo m (out + i * so) (op (ld sz m (a + i * s)))) (zrange 0 (while_rounds so n)) m.
Definition slow_bool (sz : Z) (op : Z -> bool) : ufun := slow sz 1 (fun x => b2z (op x)).
(** UnaryOpSlow_FillTrue 987-999, UnaryOpSlow_FillFalse 1001-1013: memset when contiguous *)
Definition fill (v : Z) : ufun := fun a out n s so m =>
  if so =? 1 then fold_left (fun m i => st 1 m (out + i) v) (zrange 0 n) m
  else fold_left (fun m i => st 1 m (out + i * so) v) (zrange 0 (while_rounds so n)) m.

(** ---------- floating-point classification ---------- *)
(** std::isnan, std::isfinite, std::isinf, std::signbit (libm, trusted), ISNAN_OP .. ISINF_OP 201-206, SIGNBIT_OP 268-270 *)
Definition c_isnan (f : fmt) (x : Z) : bool := is_nan f x.
Definition c_isinf (f : fmt) (x : Z) : bool := fmag f x =? finf f.
Definition c_isfinite (f : fmt) (x : Z) : bool := fmag f x <? finf f.
Definition c_signbit (f : fmt) (x : Z) : bool := fneg f x.

(** _CMP_NEQ_OQ: false when unordered *)
Definition f_neo (f : fmt) (x y : Z) : bool := ordered f x y && negb (fkey f x =? fkey f y).
(** _mm256_movemask_pd: bit i is the top bit of quadword i *)
Fixpoint movemask_pd (m : list Z) : Z :=
  match m with _ :: _ :: _ :: _ :: _ :: _ :: _ :: b7 :: r => (if 128 <=? b7 then 1 else 0) + 2 * movemask_pd r | _ => 0 end.

(** one round: [nreg] registers in, [W] bytes out *)
Section Rounds.
  Variables (sz B nreg W : Z) (comp : list reg -> list Z).
  Definition vrounds (a out q : Z) (m : bytes) : bytes :=
    fold_left (fun m k => storev 1 m (out + W * k) (comp (regs sz B nreg m (Ptr a sz) k))) (zrange 0 q) m.
End Rounds.

(** __f32vec8_finite_compare 102, __f64vec4_finite_compare 144; posinf, neginf 739-740, 807-808 *)
Definition exp_mask (f : fmt) : Z := if fwidth f =? 32 then 2139095040 (* 0x7f800000 *) else 9218868437227405312 (* 0x7ff0000000000000 *).
Definition pos_inf (f : fmt) : Z := exp_mask f.
Definition neg_inf (f : fmt) : Z := if fwidth f =? 32 then 4286578688 (* 0xFF800000 *) else 18442240474082181120 (* 0xFFF0000000000000 *).

Definition lut8 (mask : Z) : list Z := word_bytes 8 (gBooleanLUT64 (Z.land mask 255)).
Definition lut4 (mask : Z) : list Z := word_bytes 4 (gBooleanLUT32 (Z.land mask 15)).
Definition uone (g : reg -> list Z) (xs : list reg) : list Z := match xs with [x] => g x | _ => [] end.
Definition ufour (g : reg -> reg -> reg -> reg -> list Z) (xs : list reg) : list Z :=
  match xs with [x1;x2;x3;x4] => g x1 x2 x3 x4 | _ => [] end.
Definition and_mask (c : Z) (x : reg) : reg := map (fun v => Z.land v c) x.      (* _mm256_and_ps(m0, m_finitecomp) *)
Definition set1 (c : Z) (x : reg) : reg := map (fun _ => c) x.                   (* a register of the same width full of c *)

(** UnaryNanFastFloat, 436-484: packs as in CompareFloat, predicate _CMP_NEQ_UQ of a register with itself *)
Definition UnaryNanFastFloat : ufun := fun a out n s so m =>
  if (1 =? so) && (4 =? s) then
    let q := n / 32 in
    let m1 := vrounds 4 32 4 32 (ufour (fun x1 x2 x3 x4 => float_round (f_ne FLT) x1 x1 x2 x2 x3 x3 x4 x4)) a out q m in
    fold_left (fun m i => st 1 m (out + 32 * q + i) (b2z (f_ne FLT (ld 4 m (a + 128 * q + i * 4)) (ld 4 m (a + 128 * q + i * 4)))))
      (zrange 0 (n - 32 * q)) m1
  else slow_bool 4 (c_isnan FLT) a out n s so m.
(** UnaryNanFastDouble, 491-545: only if len >= 4; rounds of 8 doubles *)
Definition UnaryNanFastDouble : ufun := fun a out n s so m =>
  if (1 =? so) && (8 =? s) && (4 <=? n) then
    let q := n / 8 in
    let m1 := vrounds 8 16 4 8 (ufour (fun x1 x2 x3 x4 => double_round (f_ne DBL) x1 x1 x2 x2 x3 x3 x4 x4)) a out q m in
    fold_left (fun m i => st 1 m (out + 8 * q + i) (b2z (f_ne DBL (ld 8 m (a + 64 * q + i * 8)) (ld 8 m (a + 64 * q + i * 8)))))
      (zrange 0 (n - 8 * q)) m1
  else slow_bool 8 (c_isnan DBL) a out n s so m.

(** the table-driven functions: [L] elements a round, then the slow loop from where the rounds stopped *)
Definition UnaryLut (sz L : Z) (bytes_of : reg -> list Z) (op : Z -> bool) : ufun := fun a out n s so m =>
  if (1 =? so) && (sz =? s) && (L <=? n) then
    let q := n / L in
    let m1 := vrounds sz 32 1 L (uone bytes_of) a out q m in
    fold_left (fun m i => st 1 m (out + L * q + i * so) (b2z (op (ld sz m (a + 32 * q + i * s)))))
      (zrange 0 ((out + so * n - (out + L * q)) / so)) m1
  else slow_bool sz op a out n s so m.
(** UnaryNotNanFastFloat 552-586, UnaryNotNanFastDouble 594-626 *)
Definition UnaryNotNanFastFloat := UnaryLut 4 8 (fun x => lut8 (movemask_ps (cmp_lanes 4 (f_eq FLT) x x))) (fun x => negb (c_isnan FLT x)).
Definition UnaryNotNanFastDouble := UnaryLut 8 4 (fun x => lut4 (movemask_pd (cmp_lanes 8 (f_eq DBL) x x))) (fun x => negb (c_isnan DBL x)).
(** UnaryFiniteFastFloat 635-675, UnaryFiniteFastDouble 682-720 *)
Definition UnaryFiniteFastFloat := UnaryLut 4 8
  (fun x => lut8 (movemask_ps (cmp_lanes 4 (f_neo FLT) (set1 (exp_mask FLT) x) (and_mask (exp_mask FLT) x)))) (c_isfinite FLT).
Definition UnaryFiniteFastDouble := UnaryLut 8 4
  (fun x => lut4 (movemask_pd (cmp_lanes 8 (f_neo DBL) (set1 (exp_mask DBL) x) (and_mask (exp_mask DBL) x)))) (c_isfinite DBL).
(** UnaryNotFiniteFastFloat 842-881, UnaryNotFiniteFastDouble 888-928: predicate _CMP_EQ_OQ *)
Definition UnaryNotFiniteFastFloat := UnaryLut 4 8
  (fun x => lut8 (movemask_ps (cmp_lanes 4 (f_eq FLT) (set1 (exp_mask FLT) x) (and_mask (exp_mask FLT) x)))) (fun x => negb (c_isfinite FLT x)).
Definition UnaryNotFiniteFastDouble := UnaryLut 8 4
  (fun x => lut4 (movemask_pd (cmp_lanes 8 (f_eq DBL) (set1 (exp_mask DBL) x) (and_mask (exp_mask DBL) x)))) (fun x => negb (c_isfinite DBL x)).
(** UnaryInfFastDouble 790-836: two comparisons ORed *)
Definition inf_mask (k : nat) (f : fmt) (x : reg) : list Z :=
  vor (cmp_lanes k (f_eq f) x (set1 (pos_inf f) x)) (cmp_lanes k (f_eq f) x (set1 (neg_inf f) x)).
Definition UnaryInfFastDouble := UnaryLut 8 4 (fun x => lut4 (movemask_pd (inf_mask 8 DBL x))) (c_isinf DBL).
(** UnaryInfFastFloat 727-783: 32 floats a round; the remainder uses MATH_OP *)
Definition inf_round (x1 x2 x3 x4 : reg) : list Z :=
  let m10 := packs32 (inf_mask 4 FLT x1) (inf_mask 4 FLT x2) in
  let m12 := packs32 (inf_mask 4 FLT x3) (inf_mask 4 FLT x4) in
  let m10 := packs16 m10 m12 in
  vand (permutevar8x32 m10 g_permute) g_ones.
Definition UnaryInfFastFloat : ufun := fun a out n s so m =>
  if (1 =? so) && (4 =? s) then
    let q := n / 32 in
    let m1 := vrounds 4 32 4 32 (ufour inf_round) a out q m in
    fold_left (fun m i => st 1 m (out + 32 * q + i) (b2z (c_isinf FLT (ld 4 m (a + 128 * q + i * 4))))) (zrange 0 (n - 32 * q)) m1
  else slow_bool 4 (c_isinf FLT) a out n s so m.

(** ---------- abs, negative, sign, invert, logical_not: scalar operations 183-197 ---------- *)
(** integers of w bits, on patterns; the unary minus wraps *)
Definition i_abs (w x : Z) := if sval w x <? 0 then (- sval w x) mod 2 ^ w else x.                (* ABS_OP *)
Definition i_neg (w x : Z) := (- sval w x) mod 2 ^ w.                                             (* NEG_OP *)
Definition i_sign (w x : Z) := (if 0 <? sval w x then 1 else if sval w x <? 0 then -1 else 0) mod 2 ^ w.   (* SIGN_OP *)
Definition i_invert (w x : Z) := (Z.lnot x) mod 2 ^ w.                                            (* INVERT_OP *)
Definition b_invert (x : Z) := Z.lxor x 1.                                                        (* INVERT_OP_BOOL *)
Definition i_not (x : Z) : bool := x =? 0.                                                        (* NOT_OP *)
(** lanes: _mm256_abs_epi8/16/32, _mm256_sub_epi8..64(0, x), 274-276, 290-293 *)
Definition v_abs (w x : Z) := if sval w x <? 0 then 2 ^ w - x else x.
Definition v_neg (w x : Z) := (0 - x) mod 2 ^ w.
(** floats: x < 0 ? -x : x; -x flips the sign bit of any operand, NaN or not (compiled to xorps) *)
Definition f_flip (f : fmt) (x : Z) := Z.lxor x (2 ^ (fwidth f - 1)).
Definition f_abs (f : fmt) (x : Z) := if f_lt f x 0 then f_flip f x else x.                       (* ABS_OP<float> *)
Definition f_negate (f : fmt) (x : Z) := f_flip f x.                                              (* NEG_OP<float> *)
(** FLOATSIGN_OP, 190 *)
Definition f_one (f : fmt) : Z := (2 ^ (ebits f - 1) - 1) * 2 ^ fbits f.
Definition f_sign (f : fmt) (x : Z) : Z :=
  if f_gt f x 0 then f_one f else if f_lt f x 0 then f_flip f (f_one f) else if f_eq f x x then 0 else x.
Definition f_not (f : fmt) (x : Z) : bool := f_eq f x 0.                                          (* NOT_OP<float> *)
(** lanes: _mm256_and_ps with 0x7fffffff 278-288 (masks 82, 91); _mm256_sub_ps(0, x) 295-305: 0 - x is exact, +0 for
    either zero, and a NaN comes through quieted *)
Definition quiet (f : fmt) (x : Z) := Z.lor x (2 ^ (fbits f - 1)).
Definition abs_mask (f : fmt) : Z := if fwidth f =? 32 then 2147483647 else 9223372036854775807.
Definition vf_abs (f : fmt) (x : Z) := Z.land x (abs_mask f).
Definition vf_neg (f : fmt) (x : Z) := if is_nan f x then quiet f x else if fmag f x =? 0 then 0 else f_flip f x.

(** ---------- dispatch: GetUnaryOpFast 1628-1780, else GetUnaryOpSlow 1251-1624 ---------- *)
Inductive uop := ABS | NEGATIVE | SIGN | INVERT | LOGICAL_NOT | SIGNBIT | ISNAN | ISINF | ISFINITE | ISNOTNAN | ISNOTFINITE.

Definition GetUnaryOp (u : uop) (t : cty) : option ufun :=
  match u, t with
  | ABS, FLOAT => Some (UnaryOpFast 4 (f_abs FLT) (vf_abs FLT))
  | ABS, DOUBLE => Some (UnaryOpFast 8 (f_abs DBL) (vf_abs DBL))
  | ABS, I ((INT32 | INT16 | INT8) as t) => Some (UnaryOpFast (isize t) (i_abs (width t)) (v_abs (width t)))
  | ABS, I INT64 => Some (slow 8 8 (i_abs 64))
  | NEGATIVE, FLOAT => Some (UnaryOpFast 4 (f_negate FLT) (vf_neg FLT))
  | NEGATIVE, DOUBLE => Some (UnaryOpFast 8 (f_negate DBL) (vf_neg DBL))
  | NEGATIVE, I ((INT64 | INT32 | INT16 | INT8) as t) => Some (UnaryOpFast (isize t) (i_neg (width t)) (v_neg (width t)))
  | SIGN, FLOAT => Some (slow 4 4 (f_sign FLT))
  | SIGN, DOUBLE => Some (slow 8 8 (f_sign DBL))
  | SIGN, I ((INT64 | INT32 | INT16 | INT8) as t) => Some (slow (isize t) (isize t) (i_sign (width t)))
  | INVERT, I BOOL => Some (slow 1 1 b_invert)
  | INVERT, I t => Some (slow (isize t) (isize t) (i_invert (width t)))
  | LOGICAL_NOT, I t => Some (slow_bool (isize t) i_not)
  | LOGICAL_NOT, FLOAT => Some (slow_bool 4 (f_not FLT))
  | LOGICAL_NOT, DOUBLE => Some (slow_bool 8 (f_not DBL))
  | SIGNBIT, FLOAT => Some (slow_bool 4 (c_signbit FLT))
  | SIGNBIT, DOUBLE => Some (slow_bool 8 (c_signbit DBL))
  | ISNAN, FLOAT => Some UnaryNanFastFloat
  | ISNAN, DOUBLE => Some UnaryNanFastDouble
  | ISNAN, I _ => Some (fill 0)
  | ISINF, FLOAT => Some UnaryInfFastFloat
  | ISINF, DOUBLE => Some UnaryInfFastDouble
  | ISINF, I _ => Some (fill 0)
  | ISFINITE, FLOAT => Some UnaryFiniteFastFloat
  | ISFINITE, DOUBLE => Some UnaryFiniteFastDouble
  | ISFINITE, I _ => Some (fill 1)
  | ISNOTNAN, FLOAT => Some UnaryNotNanFastFloat
  | ISNOTNAN, DOUBLE => Some UnaryNotNanFastDouble
  | ISNOTNAN, I _ => Some (fill 1)
  | ISNOTFINITE, FLOAT => Some UnaryNotFiniteFastFloat
  | ISNOTFINITE, DOUBLE => Some UnaryNotFiniteFastDouble
  | ISNOTFINITE, I _ => Some (fill 1)
  | _, _ => None
  end.

(** One unthreaded hooked call, _pnumpy.cpp:874-897: NumPy's own loop when strideOut is 0 (one element) or there is no
    replacement.  [numpy]: that loop. *)
Definition UnaryCall (u : uop) (t : cty) (numpy : ufun) : ufun := fun a out n s so m =>
  match GetUnaryOp u t with
  | Some f => if so =? 0 then numpy a out n s so m else f a out n s so m
  | None => numpy a out n s so m
  end.
