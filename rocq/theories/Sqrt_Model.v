(** Sqrt_Model.v - np.sqrt on float32/float64: SQRT_OP and SQRT_OP_256, src/atop/ops_unary.cpp:228-229, 319-320, entered in
    GetUnaryOpFast 1757-1768; the loops are those of UfuncUn_Model.v.  (Integers have no sqrt loop in NumPy that pnumpy hooks: NumPy
    converts them to float64 first; long double is not modelled.) *)
From Verif Require Import Base Kernel_Model Float_Model Compare_Model Unary_Model Round_Model Arith_Model Ufunc_Model UfuncUn_Model.

(** sqrtf, sqrt (compiled to SQRTSS, SQRTSD) and a lane of _mm256_sqrt_ps, _mm256_sqrt_pd: the IEEE-754 square root in
    round-to-nearest-even.  The value is M / unit; in units its root is the root of M * unit.  The integer root of four times that
    is the root in halves of a unit, rounded down; a remainder is remembered as a sticky bit below it.
    Simplified: every NaN result is one quiet NaN. *)
Definition f_sqrt (f : fmt) (x : Z) : Z :=
  if is_nan f x then q_nan f
  else if is_zero f x then x
  else if fneg f x then q_nan f
  else if is_inf f x then x
  else let v := 4 * (mag_value f (fmag f x) * unit_value f) in
       let s := Z.sqrt v in
       put_sign f false (rnd_mag f (2 * s + (if s * s =? v then 0 else 1)) 4).

(** GetUnaryOpFast, 1757-1768 *)
Definition kGetSqrtOp (f : fmt) : option ukernel := Some (UFast (fwidth f / 8) (f_sqrt f) (f_sqrt f)).
