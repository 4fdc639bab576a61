(** Round_Model.v - np.floor, np.ceil, np.trunc, np.rint on float32/float64: the operations src/atop/ops_unary.cpp:211-225
    (libm round, floor, trunc, ceil) and 307-317 (_mm256_floor/ceil/round), loops as in Unary_Model.v, dispatch
    1563-1590 and 1716-1755.

    Roundings are given on bit patterns, by masking the fraction bits below the units place, the way libm's portable
    code does it; the scalar libm function and the AVX instruction are both taken to be this one IEEE operation. *)
From Verif Require Import Base Kernel_Model Float_Model Compare_Model Unary_Model.

Inductive rmode := TowardMinus | TowardPlus | TowardZero | HalfAway.
Definition bias (f : fmt) : Z := 2 ^ (ebits f - 1) - 1.
Definition sign_bit (f : fmt) (x : Z) : Z := if fneg f x then 2 ^ (fwidth f - 1) else 0.
(** does the discarded part (rem of unit u, nonzero remainder or not) push the magnitude to the next integer? *)
Definition bump (k : rmode) (neg : bool) (rem u : Z) : bool :=
  match k with
  | TowardMinus => neg && negb (rem =? 0)
  | TowardPlus => negb neg && negb (rem =? 0)
  | TowardZero => false
  | HalfAway => u <=? 2 * rem
  end.
Definition f_round (k : rmode) (f : fmt) (x : Z) : Z :=
  let e := fexp f x - bias f in
  let mag := fmag f x in
  if is_nan f x then quiet f x
  else if fbits f <=? e then x                                  (* no fraction bits; infinities *)
  else if e <? 0 then                                           (* |x| < 1 *)
    let up := match k with HalfAway => e =? -1 | _ => bump k (fneg f x) mag 1 end in
    sign_bit f x + (if up then f_one f else 0)
  else
    let u := 2 ^ (fbits f - e) in
    sign_bit f x + (mag - mag mod u) + (if bump k (fneg f x) (mag mod u) u then u else 0).

Inductive rop := FLOOR | CEIL | TRUNC | ROUND.
Definition rmode_of (r : rop) : rmode := match r with FLOOR => TowardMinus | CEIL => TowardPlus | TRUNC => TowardZero | ROUND => HalfAway end.

(** GetUnaryOpFast then GetUnaryOpSlow: ROUND has no fast kernel (1746-1755, commented out) and a slow one for double
    only (1585-1590); the others have both.  np.rint is mapped to ROUND (_pnumpy.cpp:128); its second entry, RINT (132),
    finds no kernel and no output type, so nothing is replaced for it. *)
Definition GetRoundOp (r : rop) (t : cty) : option ufun :=
  match r, t with
  | _, I _ => None
  | ROUND, FLOAT => None
  | ROUND, DOUBLE => Some (slow 8 8 (f_round HalfAway DBL))
  | _, FLOAT => Some (UnaryOpFast 4 (f_round (rmode_of r) FLT) (f_round (rmode_of r) FLT))
  | _, DOUBLE => Some (UnaryOpFast 8 (f_round (rmode_of r) DBL) (f_round (rmode_of r) DBL))
  end.
(** call site, _pnumpy.cpp:874-897, as UnaryCall *)
Definition RoundCall (r : rop) (t : cty) (numpy : ufun) : ufun := fun a out n s so m =>
  match GetRoundOp r t with
  | Some f => if so =? 0 then numpy a out n s so m else f a out n s so m
  | None => numpy a out n s so m
  end.
