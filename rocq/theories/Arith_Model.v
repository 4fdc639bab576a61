(** Arith_Model.v - binary ufuncs on float32/float64: src/atop/ops_binary.cpp (operations 59-81, 111-150, dispatch
    876-972), loops from Kernel_Model.v, call site AtopBinaryMathFunction src/pnumpy/_pnumpy.cpp:731-756.

    Floats are bit patterns (Float_Model.v).  +, -, *, / are the IEEE-754 operations in round-to-nearest-even, one
    scalar instruction and one vector lane alike (no -ffast-math, no FMA: setup.py passes -mavx2 only; flush-to-zero
    off).  Simplified: every NaN result is one quiet NaN; NaN sign and payload are not modelled. *)
From Verif Require Import Base Kernel_Model Float_Model Compare_Model Unary_Model Round_Model.

(** value of a magnitude pattern, in units of the smallest subnormal *)
Definition mag_value (f : fmt) (g : Z) : Z :=
  if g / 2 ^ fbits f =? 0 then g mod 2 ^ fbits f else (2 ^ fbits f + g mod 2 ^ fbits f) * 2 ^ (g / 2 ^ fbits f - 1).
Definition unit_value (f : fmt) : Z := mag_value f (f_one f).
Definition signed_value (f : fmt) (x : Z) : Z := if fneg f x then - mag_value f (fmag f x) else mag_value f (fmag f x).
(** the largest magnitude pattern, up to infinity, of value at most N/D: one bit at a time *)
Fixpoint search (f : fmt) (N D : Z) (k : nat) (g : Z) : Z :=
  match k with
  | O => g
  | S k => let g' := g + 2 ^ Z.of_nat k in search f N D k (if (g' <=? finf f) && (mag_value f g' * D <=? N) then g' else g)
  end.
(** N/D rounded to nearest, ties to even; infinity counts as the next number after the largest finite one *)
Definition rnd_mag (f : fmt) (N D : Z) : Z :=
  let g := search f N D (Z.to_nat (fwidth f - 1)) 0 in
  if finf f <=? g then g
  else match 2 * N ?= mag_value f g * D + mag_value f (g + 1) * D with
       | Lt => g
       | Gt => g + 1
       | Eq => if Z.even g then g else g + 1
       end.

Definition q_nan (f : fmt) : Z := finf f + 2 ^ (fbits f - 1).
Definition put_sign (f : fmt) (neg : bool) (g : Z) : Z := (if neg then 2 ^ (fwidth f - 1) else 0) + g.
Definition is_inf (f : fmt) (x : Z) : bool := fmag f x =? finf f.
Definition is_zero (f : fmt) (x : Z) : bool := fmag f x =? 0.

Definition f_add (f : fmt) (x y : Z) : Z :=                                     (* AddOp, _mm256_add_ps/pd *)
  if is_nan f x || is_nan f y then q_nan f
  else if is_inf f x then (if is_inf f y && xorb (fneg f x) (fneg f y) then q_nan f else x)
  else if is_inf f y then y
  else let s := signed_value f x + signed_value f y in
       if s =? 0 then put_sign f (fneg f x && fneg f y) 0
       else put_sign f (s <? 0) (rnd_mag f (Z.abs s) 1).
Definition f_sub (f : fmt) (x y : Z) : Z := f_add f x (f_flip f y).             (* SubOp, _mm256_sub_ps/pd *)
Definition f_mul (f : fmt) (x y : Z) : Z :=                                     (* MulOp, _mm256_mul_ps/pd *)
  if is_nan f x || is_nan f y then q_nan f
  else if (is_inf f x && is_zero f y) || (is_zero f x && is_inf f y) then q_nan f
  else let sg := xorb (fneg f x) (fneg f y) in
       if is_inf f x || is_inf f y then put_sign f sg (finf f)
       else put_sign f sg (rnd_mag f (mag_value f (fmag f x) * mag_value f (fmag f y)) (unit_value f)).
Definition f_div (f : fmt) (x y : Z) : Z :=                                     (* DivOp, _mm256_div_ps/pd *)
  if is_nan f x || is_nan f y then q_nan f
  else if (is_inf f x && is_inf f y) || (is_zero f x && is_zero f y) then q_nan f
  else let sg := xorb (fneg f x) (fneg f y) in
       if is_inf f x || is_zero f y then put_sign f sg (finf f)
       else if is_inf f y then put_sign f sg 0
       else put_sign f sg (rnd_mag f (mag_value f (fmag f x) * unit_value f) (mag_value f (fmag f y))).
(** FloorDivOp, 79-81: if (y == y) floor(x / y) else NAN *)
Definition f_floordiv (f : fmt) (x y : Z) : Z :=
  if f_eq f y y then f_round TowardMinus f (f_div f x y) else q_nan f.
(** MinOp, MaxOp 62-63; _mm256_min_ps(x, y): x < y ? x : y, the second operand when either is a NaN or both are zeros *)
Definition f_min (f : fmt) (x y : Z) : Z := if f_lt f x y then x else y.
Definition f_max (f : fmt) (x y : Z) : Z := if f_gt f x y then x else y.

Inductive fop := FADD | FSUB | FMUL | FDIV | FFLOORDIV | FMIN | FMAX.
Inductive fentry := FSym (op : Z -> Z -> Z) | FPlain (op : Z -> Z -> Z) | FSlow (op : Z -> Z -> Z).
(** GetSimpleMathOpFast, 876-972, ATOP_FLOAT and ATOP_DOUBLE *)
Definition ftable (u : fop) (f : fmt) : fentry :=
  match u with
  | FADD => FSym (f_add f) | FMUL => FSym (f_mul f)
  | FSUB => FPlain (f_sub f) | FDIV => FPlain (f_div f)
  | FMIN => FPlain (f_min f) | FMAX => FPlain (f_max f)
  | FFLOORDIV => FSlow (f_floordiv f)
  end.
Definition run_fentry (e : fentry) (sz a1 a2 out n s1 s2 so : Z) (m : bytes) : option bytes :=
  match e with
  | FSym op => SimpleMathOpFastSymmetric sz op op a1 a2 out n s1 s2 so m
  | FPlain op => SimpleMathOpFast sz op op a1 a2 out n s1 s2 so m
  | FSlow op => Some (SimpleMathOpSlow sz op a1 a2 out n s1 s2 so m)
  end.
(** AtopBinaryMathFunction _pnumpy.cpp:731-756, unthreaded, as BinaryCall; [numpy]: NumPy's own loop, chosen by the
    overlap guard *)
Definition FloatCall (u : fop) (f : fmt) (numpy : Z -> Z -> Z -> Z -> Z -> Z -> Z -> bytes -> bytes)
    (a1 a2 out n s1 s2 so : Z) (m : bytes) : option bytes :=
  if overlap_guard a1 a2 out then Some (numpy a1 a2 out n s1 s2 so m)
  else run_fentry (ftable u f) (fwidth f / 8) a1 a2 out n s1 s2 so m.
