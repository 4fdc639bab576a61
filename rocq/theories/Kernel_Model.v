(** Kernel_Model.v - element-wise kernels with a vector body, an alignment peel and a scalar tail:
    src/atop/ops_binary.cpp:345-792 and src/atop/ops_unary.cpp:328-378; lane operations ops_binary.cpp:57-175.

    Memory is a function from byte address to byte value (0..255).  An element of [sz] bytes is its
    little-endian bit pattern, a number in [0, 256^sz).  A 256-bit register is the list of its
    [perReg] = 32/sz element patterns.  The intrinsics are taken to act lane by lane as Intel documents
    (trusted); LOADA/STOREA fault ([None]) at an address that is not a multiple of 32. *)
From Verif Require Import Base.

Definition bytes := Z -> Z.

(** load of a T through a pointer, little endian *)
Fixpoint ldn (k : nat) (m : bytes) (a : Z) : Z :=
  match k with O => 0 | S k' => m a + 256 * ldn k' m (a + 1) end.
(** store of a T through a pointer *)
Fixpoint stn (k : nat) (m : bytes) (a v : Z) : bytes :=
  match k with O => m | S k' => stn k' (zupd m a (v mod 256)) (a + 1) (v / 256) end.
Definition ld (sz : Z) := ldn (Z.to_nat sz).
Definition st (sz : Z) := stn (Z.to_nat sz).

(** LOADU / STOREU of a whole register: all lanes are read before any is written *)
Definition perReg (sz : Z) : Z := 32 / sz.
Definition loadv (sz : Z) (m : bytes) (a : Z) : list Z := map (fun l => ld sz m (a + l * sz)) (zrange 0 (perReg sz)).
Fixpoint storev (sz : Z) (m : bytes) (a : Z) (vs : list Z) : bytes :=
  match vs with [] => m | v :: r => storev sz (st sz m a v) (a + sz) r end.
(** MM_SET: the element in every lane *)
Definition mm_set (sz v : Z) : list Z := map (fun _ => v) (zrange 0 (perReg sz)).
(** a lane-wise intrinsic *)
Fixpoint lanes2 (f : Z -> Z -> Z) (x y : list Z) : list Z :=
  match x, y with a :: x', b :: y' => f a b :: lanes2 f x' y' | _, _ => [] end.

(** An operand of a loop: a pointer advanced by a stride, or a value kept in a register. *)
Inductive opd := Ptr (p stride : Z) | Val (v : Z).
Definition rd (sz : Z) (m : bytes) (o : opd) (i : Z) : Z :=
  match o with Ptr p s => ld sz m (p + i * s) | Val v => v end.
Definition rdv (sz : Z) (m : bytes) (o : opd) (k : Z) : list Z :=
  match o with Ptr p _ => loadv sz m (p + 32 * k) | Val v => mm_set sz v end.
Definition adv (o : opd) (d : Z) : opd := match o with Ptr p s => Ptr (p + d) s | Val v => Val v end.

Section Binary.
  Variables (sz : Z) (op opv : Z -> Z -> Z).   (* sizeof(T), MATH_OP, one lane of MATH_OP256 *)

  (** for (i = 0; i < n; i++) out[i] = MATH_OP(x[i], y[i]); also the generic loop with STRIDE_NEXT *)
  Definition scalar_loop (x y : opd) (out so n : Z) (m : bytes) : bytes :=
    fold_left (fun m i => st sz m (out + i * so) (op (rd sz m x i) (rd sz m y i))) (zrange 0 n) m.

  (** do { STOREU(pOut_256, MATH_OP256(x, y)); ... } while (pOut_256 < pEnd_256): [q] rounds *)
  Definition vector_loop (x y : opd) (out q : Z) (m : bytes) : bytes :=
    fold_left (fun m k => storev sz m (out + 32 * k) (lanes2 opv (rdv sz m x k) (rdv sz m y k))) (zrange 0 q) m.

  (** the shape shared by ops_binary.cpp:412-441, 447-480, 517-545, 590-625, 629-652, 658-692, 745-775:
      [x y] operands of the scalar tail, [vx vy] those of the vector body *)
  Definition body_and_tail (x y vx vy : opd) (out n : Z) (m : bytes) : bytes :=
    let chunkSize := perReg sz in
    if chunkSize <=? n then
      let q := n / chunkSize in
      let m1 := vector_loop vx vy out q m in
      scalar_loop (adv x (32 * q)) (adv y (32 * q)) (out + 32 * q) sz (Z.land n (chunkSize - 1)) m1
    else scalar_loop x y out sz n m.

  (** SimpleMathOpSlow, ops_binary.cpp:349-392 *)
  Definition SimpleMathOpSlow (a1 a2 out n s1 s2 so : Z) (m : bytes) : bytes :=
    if (so =? sz) && negb (s1 =? 0) && negb (s2 =? 0) && (s2 =? sz) && (s1 =? sz) then
      scalar_loop (Ptr a1 sz) (Ptr a2 sz) out sz n m
    else if (so =? sz) && (s1 =? 0) && (s2 =? sz) then
      scalar_loop (Val (ld sz m a1)) (Ptr a2 sz) out sz n m
    else if (so =? sz) && (s2 =? 0) && (s1 =? sz) then
      scalar_loop (Ptr a1 sz) (Val (ld sz m a2)) out sz n m
    else scalar_loop (Ptr a1 s1) (Ptr a2 s2) out so n m.

  (** while (pIn1_256 < pEnd_256) { STOREA(pIn1_256, MATH_OP256(LOADA(pIn1_256), m1)); pIn1_256++; } l.498-501, 722-731 *)
  Definition aligned_loop (vf : list Z -> list Z) (p q : Z) (m : bytes) : option bytes :=
    fold_left (fun om k => match om with
        | None => None
        | Some m => if (p + 32 * k) mod 32 =? 0 then Some (storev sz m (p + 32 * k) (vf (loadv sz m (p + 32 * k)))) else None
        end) (zrange 0 q) (Some m).

  (** the in-place vector/scalar case, l.476-515 (and 695-742): alignment peel, aligned body, tail.
      [vf m2] is the vector operation with the scalar operand re-read by MM_SET after the peel. *)
  Definition inplace_scalar (vf : Z -> list Z -> list Z) (p a2 n : Z) (m : bytes) : option bytes :=
    let arg2 := ld sz m a2 in
    let off := Z.land p 31 in
    let babylen := (32 - off) / sz in
    let peel := negb (off =? 0) && (babylen <=? n) in
    let m1 := if peel then scalar_loop (Ptr p sz) (Val arg2) p sz babylen m else m in
    let p1 := if peel then p + babylen * sz else p in
    let n1 := if peel then n - babylen else n in
    let chunkSize := perReg sz in
    if chunkSize <=? n1 then
      let q := n1 / chunkSize in
      match aligned_loop (vf (ld sz m1 a2)) p1 q m1 with
      | None => None
      | Some m2 => Some (scalar_loop (Ptr (p1 + 32 * q) sz) (Val arg2) (p1 + 32 * q) sz (Z.land n1 (chunkSize - 1)) m2)
      end
    else Some (scalar_loop (Ptr p1 sz) (Val arg2) p1 sz n1 m1).

  (** SimpleMathOpFast, ops_binary.cpp:396-557 *)
  Definition SimpleMathOpFast (a1 a2 out n s1 s2 so : Z) (m : bytes) : option bytes :=
    if (so =? sz) && negb (s1 =? 0) && negb (s2 =? 0) && (s2 =? sz) && (s1 =? sz) then
      Some (body_and_tail (Ptr a1 sz) (Ptr a2 sz) (Ptr a1 sz) (Ptr a2 sz) out n m)
    else if (so =? sz) && (s1 =? 0) && (s2 =? sz) then
      let v := Val (ld sz m a1) in Some (body_and_tail v (Ptr a2 sz) v (Ptr a2 sz) out n m)
    else if (so =? sz) && (s2 =? 0) && (s1 =? sz) then
      if out =? a1 then inplace_scalar (fun v x => lanes2 opv x (mm_set sz v)) a1 a2 n m
      else let v := Val (ld sz m a2) in Some (body_and_tail (Ptr a1 sz) v (Ptr a1 sz) v out n m)
    else Some (scalar_loop (Ptr a1 s1) (Ptr a2 s2) out so n m).

  (** SimpleMathOpFastSymmetric, ops_binary.cpp:577-792: the vector/scalar body has the scalar as FIRST
      operand, and equal input pointers are loaded once *)
  Definition SimpleMathOpFastSymmetric (a1 a2 out n s1 s2 so : Z) (m : bytes) : option bytes :=
    if (so =? sz) && (s2 =? sz) && (s1 =? sz) then
      if negb (a1 =? a2) then Some (body_and_tail (Ptr a1 sz) (Ptr a2 sz) (Ptr a1 sz) (Ptr a2 sz) out n m)
      else Some (body_and_tail (Ptr a1 sz) (Ptr a1 sz) (Ptr a1 sz) (Ptr a1 sz) out n m)
    else if (so =? sz) && (s1 =? 0) && (s2 =? sz) then
      let v := Val (ld sz m a1) in Some (body_and_tail v (Ptr a2 sz) v (Ptr a2 sz) out n m)
    else if (so =? sz) && (s2 =? 0) && (s1 =? sz) then
      if out =? a1 then inplace_scalar (fun v x => lanes2 opv (mm_set sz v) x) a1 a2 n m
      else let v := Val (ld sz m a2) in Some (body_and_tail (Ptr a1 sz) v v (Ptr a1 sz) out n m)
    else Some (scalar_loop (Ptr a1 s1) (Ptr a2 s2) out so n m).
End Binary.

(** UnaryOpFast, ops_unary.cpp:328-378.  The slow loop runs while (pOut != pLastOut), pLastOut = pOut + strideOut * len:
    no round at all when strideOut is 0, else len - done rounds.  The register operand *pIn1_256 is taken to be an
    unaligned load. *)
Definition while_rounds (so n : Z) : Z := if so =? 0 then 0 else n.
Section Unary.
  Variables (sz : Z) (op opv : Z -> Z).
  Definition UnaryOpFast (a out n s so : Z) (m : bytes) : bytes :=
    let chunkSize := perReg sz in
    if (sz =? so) && (sz =? s) && (chunkSize <=? n) then
      let q := n / chunkSize in
      let m1 := fold_left (fun m k => storev sz m (out + 32 * k) (map opv (loadv sz m (a + 32 * k)))) (zrange 0 q) m in
      let rest := (out + so * n - (out + 32 * q)) / so in
      fold_left (fun m i => st sz m (out + 32 * q + i * so) (op (ld sz m (a + 32 * q + i * s)))) (zrange 0 rest) m1
    else
      fold_left (fun m i => st sz m (out + i * so) (op (ld sz m (a + i * s)))) (zrange 0 (while_rounds so n)) m.
End Unary.

(** ---------- scalar operations and lanes ---------- *)
(** the signed value of a w-bit pattern *)
Definition sval (w x : Z) : Z := if x <? 2 ^ (w - 1) then x else x - 2 ^ w.

(** Scalar operations, ops_binary.cpp:59-90, on w-bit patterns.  Signed T: the operation on the signed values
    (after promotion to int), stored back modulo 2^w; that 64- and 32-bit signed overflow wraps is the
    documented NumPy behaviour the compiler is assumed to keep. *)
Definition s_add (w x y : Z) := (sval w x + sval w y) mod 2 ^ w.     (* AddOp *)
Definition s_sub (w x y : Z) := (sval w x - sval w y) mod 2 ^ w.     (* SubOp *)
Definition s_mul (w x y : Z) := (sval w x * sval w y) mod 2 ^ w.     (* MulOp, signed *)
Definition u_mul (w x y : Z) := (x * y) mod 2 ^ w.                   (* MulOp<uint64_t> *)
Definition s_min (w x y : Z) := if sval w x <? sval w y then x else y.   (* MinOp *)
Definition s_max (w x y : Z) := if sval w x >? sval w y then x else y.   (* MaxOp *)

(** One lane of the intrinsics, ops_binary.cpp:118-175.  _mm256_add_epi8..64, sub, mullo_epi16/32: low bits of the
    sum/difference/product of the lanes; _mm256_min_epi8..32, max: the smaller/larger as signed integers. *)
Definition v_add (w x y : Z) := (x + y) mod 2 ^ w.
Definition v_sub (w x y : Z) := (x - y) mod 2 ^ w.
Definition v_mullo (w x y : Z) := (sval w x * sval w y) mod 2 ^ w.
Definition v_min (w x y : Z) := if sval w x <=? sval w y then x else y.
Definition v_max (w x y : Z) := if sval w x >=? sval w y then x else y.

(** MUL_OP_256u64, ops_binary.cpp:160-175: and, srl, sll, mul_epu32 (product of the low 32 bits), add_epi64 *)
Definition masklo := 4294967295.   (* 0xFFFFFFFFLL, l.156 *)
Definition shifthigh := 32.        (* l.157 *)
Definition mul_epu32 (x y : Z) := (x mod 2 ^ 32) * (y mod 2 ^ 32).
Definition sll64 (x k : Z) := (Z.shiftl x k) mod 2 ^ 64.
Definition srl64 (x k : Z) := Z.shiftr x k.
Definition add64 (x y : Z) := (x + y) mod 2 ^ 64.
Definition MUL_OP_256u64 (x y : Z) : Z :=
  let lo1 := Z.land x masklo in
  let lo2 := Z.land y masklo in
  let hi1 := srl64 x shifthigh in
  let hi2 := srl64 y shifthigh in
  let add1 := mul_epu32 lo1 lo2 in
  let add2 := sll64 (mul_epu32 lo1 hi2) shifthigh in
  let add3 := sll64 (mul_epu32 lo2 hi1) shifthigh in
  add64 add1 (add64 add2 add3).

(** GetSimpleMathOpFast, ops_binary.cpp:872-1056: the integer and boolean entries.  [Sym] uses
    SimpleMathOpFastSymmetric, [Plain] SimpleMathOpFast; arguments: item size, scalar operation, lane operation. *)
Inductive ufn := ADD | MUL | SUB | MINIMUM | MAXIMUM | LOGICAL_AND | BITWISE_AND | LOGICAL_OR | BITWISE_OR | BITWISE_XOR.
Inductive ity := BOOL | INT8 | UINT8 | INT16 | UINT16 | INT32 | UINT32 | INT64 | UINT64.
Definition isize (t : ity) : Z :=
  match t with BOOL | INT8 | UINT8 => 1 | INT16 | UINT16 => 2 | INT32 | UINT32 => 4 | INT64 | UINT64 => 8 end.
Definition width (t : ity) : Z := 8 * isize t.
Inductive entry := Sym (op opv : Z -> Z -> Z) | Plain (op opv : Z -> Z -> Z).

Definition table (f : ufn) (t : ity) : option entry :=
  let w := width t in
  match f, t with
  | ADD, BOOL => Some (Sym Z.lor Z.lor)
  | ADD, (INT32 | INT64 | INT16 | INT8) => Some (Sym (s_add w) (v_add w))
  | MUL, BOOL => Some (Sym Z.land Z.land)
  | MUL, (INT32 | INT16) => Some (Sym (s_mul w) (v_mullo w))
  | MUL, UINT64 => Some (Sym (u_mul w) MUL_OP_256u64)
  | SUB, (INT32 | INT64 | INT16 | INT8) => Some (Plain (s_sub w) (v_sub w))
  | MINIMUM, (INT8 | INT16 | INT32) => Some (Plain (s_min w) (v_min w))
  | MAXIMUM, (INT8 | INT16 | INT32) => Some (Plain (s_max w) (v_max w))
  | LOGICAL_AND, BOOL => Some (Sym Z.land Z.land)
  | LOGICAL_OR, BOOL => Some (Sym Z.lor Z.lor)
  | BITWISE_AND, _ => Some (Sym Z.land Z.land)
  | BITWISE_OR, _ => Some (Sym Z.lor Z.lor)
  | BITWISE_XOR, _ => Some (Sym Z.lxor Z.lxor)
  | _, _ => None
  end.

(** One unthreaded call of a hooked integer ufunc when a replacement kernel exists,
    AtopBinaryMathFunction _pnumpy.cpp:731-756: args, steps and the overlap guard of l.743.
    [numpy] is the original loop, taken to be the sequential loop with NumPy's own operation [nop]. *)
Definition overlap_guard (p1 p2 pout : Z) : bool :=
  ((pout >? p1) && (pout <? p1 + 64)) || ((pout >? p2) && (pout <? p2 + 64)).

Definition run_entry (e : entry) (sz a1 a2 out n s1 s2 so : Z) (m : bytes) : option bytes :=
  match e with
  | Sym op opv => SimpleMathOpFastSymmetric sz op opv a1 a2 out n s1 s2 so m
  | Plain op opv => SimpleMathOpFast sz op opv a1 a2 out n s1 s2 so m
  end.

Definition BinaryCall (f : ufn) (t : ity) (nop : Z -> Z -> Z) (a1 a2 out n s1 s2 so : Z) (m : bytes) : option bytes :=
  let numpy := Some (scalar_loop (isize t) nop (Ptr a1 s1) (Ptr a2 s2) out so n m) in
  match table f t with
  | Some e => if overlap_guard a1 a2 out then numpy else run_entry e (isize t) a1 a2 out n s1 s2 so m
  | None => numpy
  end.
