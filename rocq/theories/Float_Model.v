(** Float_Model.v - IEEE-754 binary32/binary64 numbers as bit patterns.  [p] = stored fraction bits (23, 52),
    [w] = width (32, 64).  No rounding is modelled: the operations modelled on these patterns
    (comparison, classification, sign changes, minimum/maximum) are exact. *)
From Verif Require Import Base.

Record fmt := mkFmt { fbits : Z; fwidth : Z }.
Definition FLT := mkFmt 23 32.    (* float  *)
Definition DBL := mkFmt 52 64.    (* double *)

Definition fmag (f : fmt) (x : Z) : Z := x mod 2 ^ (fwidth f - 1).         (* all bits but the sign *)
Definition fneg (f : fmt) (x : Z) : bool := 2 ^ (fwidth f - 1) <=? x.      (* the sign bit *)
Definition ebits (f : fmt) : Z := fwidth f - 1 - fbits f.
Definition fexp (f : fmt) (x : Z) : Z := fmag f x / 2 ^ fbits f.           (* exponent field *)
Definition ffrac (f : fmt) (x : Z) : Z := fmag f x mod 2 ^ fbits f.        (* fraction field *)
Definition emax (f : fmt) : Z := 2 ^ ebits f - 1.
Definition finf (f : fmt) : Z := emax f * 2 ^ fbits f.                     (* pattern of +infinity *)

(** How the hardware and the compiled C++ compare: on NaN-free patterns, by sign and magnitude. *)
Definition is_nan (f : fmt) (x : Z) : bool := finf f <? fmag f x.
Definition fkey (f : fmt) (x : Z) : Z := if fneg f x then - fmag f x else fmag f x.

(** C++ operators on float/double; _CMP_EQ_OQ, _CMP_NEQ_UQ, _CMP_GT_OQ, _CMP_GE_OQ, _CMP_LT_OQ, _CMP_LE_OQ: the O
    predicates are false and the U predicate true when an operand is a NaN (Intel SDM; trusted). *)
Definition ordered (f : fmt) (x y : Z) : bool := negb (is_nan f x) && negb (is_nan f y).
Definition f_eq (f : fmt) (x y : Z) : bool := ordered f x y && (fkey f x =? fkey f y).
Definition f_ne (f : fmt) (x y : Z) : bool := negb (ordered f x y) || negb (fkey f x =? fkey f y).
Definition f_gt (f : fmt) (x y : Z) : bool := ordered f x y && (fkey f y <? fkey f x).
Definition f_ge (f : fmt) (x y : Z) : bool := ordered f x y && (fkey f y <=? fkey f x).
Definition f_lt (f : fmt) (x y : Z) : bool := ordered f x y && (fkey f x <? fkey f y).
Definition f_le (f : fmt) (x y : Z) : bool := ordered f x y && (fkey f x <=? fkey f y).
