(** Compare_Model.v - comparison ufuncs: src/atop/ops_compare.cpp (lane operations 86-397, loops 405-1254,
    dispatch 1267-1446) and the expansion tables of atop.cpp:73-95.

    Memory as in Kernel_Model.v.  A register that has been compared is the list of its bytes, byte 0 first
    (32 bytes, or 16 for __m128i).  Intrinsics are as Intel documents them (trusted). *)
From Verif Require Import Base Kernel_Model Float_Model.

Definition b2z (b : bool) : Z := if b then 1 else 0.

(** ---------- intrinsics ---------- *)
(** _mm256_set_epi8 / _mm256_set_epi32: arguments are given highest lane first *)
Definition set_epi (l : list Z) : list Z := rev l.
(** _mm256_cmpeq_epiN, _mm256_cmpgt_epiN, _mm256_cmp_ps, _mm_cmp_pd: every byte of a lane is 0xFF or 0 *)
Definition mask8 (b : bool) : Z := if b then 255 else 0.
Fixpoint cmp_lanes (k : nat) (p : Z -> Z -> bool) (x y : list Z) : list Z :=
  match x, y with a :: x', b :: y' => repeat (mask8 (p a b)) k ++ cmp_lanes k p x' y' | _, _ => [] end.
Definition cmpeq (sz : Z) := cmp_lanes (Z.to_nat sz) Z.eqb.
Definition cmpgt (sz : Z) := cmp_lanes (Z.to_nat sz) (fun a b => sval (8 * sz) b <? sval (8 * sz) a).
(** _mm256_shuffle_epi8: inside each 128-bit half, byte i is 0 if the control byte has bit 7, else the byte it selects *)
Definition shuffle_epi8 (m ctl : list Z) : list Z :=
  map (fun i => let c := nth i ctl 0 in
     if 128 <=? c then 0 else nth (16 * Nat.div i 16 + Z.to_nat (c mod 16))%nat m 0) (seq 0 32).
(** _mm256_permutevar8x32_epi32: dword i is dword idx[i] of the source *)
Definition permutevar8x32 (m idx : list Z) : list Z :=
  concat (map (fun i => firstn 4 (skipn (4 * Z.to_nat i) m)) idx).
(** signed saturation *)
Definition clamp (lo hi v : Z) : Z := if v <? lo then lo else if hi <? v then hi else v.
Definition dword (b0 b1 b2 b3 : Z) : Z := b0 + 256 * (b1 + 256 * (b2 + 256 * b3)).
Definition sat16 (b0 b1 b2 b3 : Z) : Z := clamp (-32768) 32767 (sval 32 (dword b0 b1 b2 b3)) mod 65536.
Definition sat16lo b0 b1 b2 b3 : Z := sat16 b0 b1 b2 b3 mod 256.
Definition sat16hi b0 b1 b2 b3 : Z := sat16 b0 b1 b2 b3 / 256.
Definition sat8 (b0 b1 : Z) : Z := clamp (-128) 127 (sval 16 (b0 + 256 * b1)) mod 256.
Fixpoint pack_dwords (l : list Z) : list Z :=
  match l with b0 :: b1 :: b2 :: b3 :: r => sat16lo b0 b1 b2 b3 :: sat16hi b0 b1 b2 b3 :: pack_dwords r | _ => [] end.
Fixpoint pack_words (l : list Z) : list Z :=
  match l with b0 :: b1 :: r => sat8 b0 b1 :: pack_words r | _ => [] end.
(** _mm_packs_epi32, _mm_packs_epi16, and the 256-bit forms, which work on each half *)
Definition packs32_128 (a b : list Z) : list Z := pack_dwords a ++ pack_dwords b.
Definition packs16_128 (a b : list Z) : list Z := pack_words a ++ pack_words b.
Definition halves (f : list Z -> list Z -> list Z) (a b : list Z) : list Z :=
  f (firstn 16 a) (firstn 16 b) ++ f (skipn 16 a) (skipn 16 b).
Definition packs32 := halves packs32_128.
Definition packs16 := halves packs16_128.
(** and, or, xor, min_epu8: byte by byte *)
Definition vand := lanes2 Z.land.
Definition vor := lanes2 Z.lor.
Definition vxor := lanes2 Z.lxor.
Definition min_epu8 := lanes2 Z.min.
(** _mm256_extracti128_si256 / _mm256_inserti128_si256 *)
Definition extract128 (m : list Z) (i : nat) : list Z := firstn 16 (skipn (16 * i) m).
Definition insert128_0 (m x : list Z) : list Z := x ++ skipn 16 m.
(** _mm256_movemask_ps: bit i is the top bit of dword i *)
Fixpoint movemask_ps (m : list Z) : Z :=
  match m with _ :: _ :: _ :: b3 :: r => (if 128 <=? b3 then 1 else 0) + 2 * movemask_ps r | _ => 0 end.

(** ---------- constants, ops_compare.cpp:88-134 ---------- *)
Definition Q := 128.   (* (char)0x80 *)
Definition z12 := [Q;Q;Q;Q;Q;Q;Q;Q;Q;Q;Q;Q].
Definition g_shuffle1 := set_epi (z12 ++ [12;8;4;0] ++ z12 ++ [12;8;4;0]).                                     (* 90 *)
Definition g_shuffle2 := set_epi ([Q;Q;Q;Q;Q;Q;Q;Q;12;8;4;0;Q;Q;Q;Q] ++ [Q;Q;Q;Q;Q;Q;Q;Q;12;8;4;0;Q;Q;Q;Q]).   (* 94 *)
Definition g_shuffle3 := set_epi ([Q;Q;Q;Q;12;8;4;0;Q;Q;Q;Q;Q;Q;Q;Q] ++ [Q;Q;Q;Q;12;8;4;0;Q;Q;Q;Q;Q;Q;Q;Q]).   (* 97 *)
Definition g_shuffle4 := set_epi ([12;8;4;0] ++ z12 ++ [12;8;4;0] ++ z12).                                     (* 100 *)
Definition g_shuffle64_spec := set_epi                                                                         (* 118 *)
  ([Q;Q;Q;Q;Q;Q;Q;Q] ++ [Q;12;Q;8;Q;4;Q;0] ++ [Q;Q;Q;Q;Q;Q;Q;Q] ++ [Q;12;Q;8;Q;4;Q;0]).
Definition g_permute := set_epi [7;3;6;2;5;1;4;0].     (* 126 *)
Definition g_permutelo := set_epi [7;3;6;2;5;1;4;0].   (* 127 *)
Definition g_ones := repeat 1 32.                      (* 128 *)
Definition g_ones128 := repeat 1 16.                   (* 129 *)

(** gBooleanLUT64, gBooleanLUT64Inverse, gBooleanLUT32, gBooleanLUT32Inverse, atop.cpp:73-95: the 8 (4) bytes
    written through pDest make up a little-endian int64 (int32) *)
Definition lut_bytes (cnt : nat) (i : Z) : list Z := map (fun j => Z.land (Z.shiftr i (Z.of_nat j)) 1) (seq 0 cnt).
Fixpoint le_word (l : list Z) : Z := match l with [] => 0 | b :: r => b + 256 * le_word r end.
Definition gBooleanLUT64 (i : Z) : Z := le_word (lut_bytes 8 i).
Definition gBooleanLUT32 (i : Z) : Z := le_word (lut_bytes 4 i).
Definition gBooleanLUT64Inverse (i : Z) : Z := Z.lxor (gBooleanLUT64 i) 72340172838076673.   (* 0x0101010101010101 *)
Definition gBooleanLUT32Inverse (i : Z) : Z := Z.lxor (gBooleanLUT32 i) 16843009.            (* 0x01010101 *)
(** the bytes of an integer in memory *)
Fixpoint word_bytes (k : nat) (v : Z) : list Z := match k with O => [] | S k' => v mod 256 :: word_bytes k' (v / 256) end.

(** ---------- vector comparisons ---------- *)
Definition reg := list Z.
(** COMP32i_EQS, 137-148 *)
Definition COMP32i_EQS (x1 y1 x2 y2 x3 y3 x4 y4 : reg) : list Z :=
  let m0 := shuffle_epi8 (cmpeq 4 x1 y1) g_shuffle1 in
  let m1 := shuffle_epi8 (cmpeq 4 x2 y2) g_shuffle2 in
  let m2 := shuffle_epi8 (cmpeq 4 x3 y3) g_shuffle3 in
  let m3 := shuffle_epi8 (cmpeq 4 x4 y4) g_shuffle4 in
  let m4 := vor (vor m0 m1) (vor m2 m3) in
  vand (permutevar8x32 m4 g_permute) g_ones.
(** COMP32i_EQ .. COMP32i_LE, 191-196: an int64 holding 8 bools; the loop stores it *)
Definition COMP32i_EQ (x y : reg) : Z := gBooleanLUT64 (Z.land (movemask_ps (cmpeq 4 x y)) 255).
Definition COMP32i_NE (x y : reg) : Z := gBooleanLUT64Inverse (Z.land (movemask_ps (cmpeq 4 x y)) 255).
Definition COMP32i_GT (x y : reg) : Z := gBooleanLUT64 (Z.land (movemask_ps (cmpgt 4 x y)) 255).
Definition COMP32i_LT (x y : reg) : Z := gBooleanLUT64 (Z.land (movemask_ps (cmpgt 4 y x)) 255).
Definition COMP32i_GE (x y : reg) : Z := gBooleanLUT64Inverse (Z.land (movemask_ps (cmpgt 4 y x)) 255).
Definition COMP32i_LE (x y : reg) : Z := gBooleanLUT64Inverse (Z.land (movemask_ps (cmpgt 4 x y)) 255).
(** COMP64i_*, 199-306; [c] the comparison, [flip]: the final xor with g_ones *)
Definition COMP64i_pack (c : reg -> reg -> list Z) (x1 y1 x2 y2 : reg) : list Z :=
  permutevar8x32 (shuffle_epi8 (packs32 (c x1 y1) (c x2 y2)) g_shuffle64_spec) g_permutelo.
Definition COMP64i (c : reg -> reg -> list Z) (flip : bool) (x1 y1 x2 y2 x3 y3 x4 y4 : reg) : list Z :=
  let m0 := COMP64i_pack c x1 y1 x2 y2 in
  let m1 := COMP64i_pack c x3 y3 x4 y4 in
  let m0 := vand (packs16 m0 m1) g_ones in
  let m0 := if flip then vxor m0 g_ones else m0 in
  extract128 m0 0.
Definition COMP64i_EQ x1 y1 x2 y2 x3 y3 x4 y4 := COMP64i (cmpeq 8) false x1 y1 x2 y2 x3 y3 x4 y4.
Definition COMP64i_NE x1 y1 x2 y2 x3 y3 x4 y4 := COMP64i (cmpeq 8) true x1 y1 x2 y2 x3 y3 x4 y4.
Definition COMP64i_GT x1 y1 x2 y2 x3 y3 x4 y4 := COMP64i (cmpgt 8) false x1 y1 x2 y2 x3 y3 x4 y4.
Definition COMP64i_LT y1 x1 y2 x2 y3 x3 y4 x4 := COMP64i (cmpgt 8) false x1 y1 x2 y2 x3 y3 x4 y4.
Definition COMP64i_GE y1 x1 y2 x2 y3 x3 y4 x4 := COMP64i (cmpgt 8) true x1 y1 x2 y2 x3 y3 x4 y4.
Definition COMP64i_LE x1 y1 x2 y2 x3 y3 x4 y4 := COMP64i (cmpgt 8) true x1 y1 x2 y2 x3 y3 x4 y4.
(** COMP8i_*, 316-321 *)
Definition COMP8i_EQ (x y mask1 : reg) := vand (cmpeq 1 x y) mask1.
Definition COMP8i_NE (x y mask1 : reg) := vxor (vand (cmpeq 1 x y) mask1) mask1.
Definition COMP8i_GT (x y mask1 : reg) := vand (cmpgt 1 x y) mask1.
Definition COMP8i_LT (x y mask1 : reg) := vand (cmpgt 1 y x) mask1.
Definition COMP8i_GE (x y mask1 : reg) := vxor (vand (cmpgt 1 y x) mask1) mask1.
Definition COMP8i_LE (x y mask1 : reg) := vxor (vand (cmpgt 1 x y) mask1) mask1.
(** COMPBool_*, 324-329 *)
Definition COMPBool_EQ (x y mask1 : reg) := vand (cmpeq 1 (min_epu8 x mask1) (min_epu8 y mask1)) mask1.
Definition COMPBool_NE (x y mask1 : reg) := vxor (vand (cmpeq 1 (min_epu8 x mask1) (min_epu8 y mask1)) mask1) mask1.
Definition COMPBool_GT (x y mask1 : reg) := vand (cmpgt 1 (min_epu8 x mask1) (min_epu8 y mask1)) mask1.
Definition COMPBool_LT (x y mask1 : reg) := vand (cmpgt 1 (min_epu8 y mask1) (min_epu8 x mask1)) mask1.
Definition COMPBool_GE (x y mask1 : reg) := vxor (vand (cmpgt 1 (min_epu8 y mask1) (min_epu8 x mask1)) mask1) mask1.
Definition COMPBool_LE (x y mask1 : reg) := vxor (vand (cmpgt 1 (min_epu8 x mask1) (min_epu8 y mask1)) mask1) mask1.
(** COMP16i_*, 333-367; mask1 = _mm256_set1_epi16(1), l.1095 *)
Definition mask16 : list Z := concat (repeat [1;0] 16).
Definition COMP16i_pack (m0 : list Z) : list Z :=
  let m1 := insert128_0 m0 (extract128 m0 1) in extract128 (packs16 m0 m1) 0.
Definition COMP16i_EQ (x y mask1 : reg) := COMP16i_pack (vand (cmpeq 2 x y) mask1).
Definition COMP16i_NE (x y mask1 : reg) := COMP16i_pack (vxor (vand (cmpeq 2 x y) mask1) mask1).
Definition COMP16i_GT (x y mask1 : reg) := COMP16i_pack (vand (cmpgt 2 x y) mask1).
Definition COMP16i_LT (x y mask1 : reg) := COMP16i_pack (vand (cmpgt 2 y x) mask1).
Definition COMP16i_GE (x y mask1 : reg) := COMP16i_pack (vxor (vand (cmpgt 2 y x) mask1) mask1).
Definition COMP16i_LE (x y mask1 : reg) := COMP16i_pack (vxor (vand (cmpgt 2 x y) mask1) mask1).
(** the loop bodies of CompareFloat (467-476 and its three siblings) and CompareDouble (621-633 and siblings) *)
Definition float_round (p : Z -> Z -> bool) (x1 y1 x2 y2 x3 y3 x4 y4 : reg) : list Z :=
  let m0 := cmp_lanes 4 p x1 y1 in
  let m1 := cmp_lanes 4 p x2 y2 in
  let m0 := packs32 m0 m1 in
  let m2 := cmp_lanes 4 p x3 y3 in
  let m3 := cmp_lanes 4 p x4 y4 in
  let m2 := packs32 m2 m3 in
  let m0 := packs16 m0 m2 in
  vand (permutevar8x32 m0 g_permute) g_ones.
Definition double_round (p : Z -> Z -> bool) (x1 y1 x2 y2 x3 y3 x4 y4 : reg) : list Z :=
  let m0 := cmp_lanes 8 p x1 y1 in
  let m1 := cmp_lanes 8 p x2 y2 in
  let m0 := packs32_128 m0 m1 in
  let m2 := cmp_lanes 8 p x3 y3 in
  let m3 := cmp_lanes 8 p x4 y4 in
  let m2 := packs32_128 m2 m3 in
  let m0 := packs16_128 m0 m2 in
  let m0 := packs16_128 m0 m0 in
  firstn 8 (vand m0 g_ones128).     (* _mm_storel_epi64 *)

(** ---------- scalar comparisons ---------- *)
(** COMP_*, 371-376, T signed of w bits / T unsigned *)
Definition s_eq (w x y : Z) := sval w x =? sval w y.
Definition s_ne (w x y : Z) := negb (sval w x =? sval w y).
Definition s_gt (w x y : Z) := sval w y <? sval w x.
Definition s_ge (w x y : Z) := sval w y <=? sval w x.
Definition s_lt (w x y : Z) := sval w x <? sval w y.
Definition s_le (w x y : Z) := sval w x <=? sval w y.
Definition u_gt (x y : Z) := y <? x.
Definition u_ge (x y : Z) := y <=? x.
Definition u_lt (x y : Z) := x <? y.
Definition u_le (x y : Z) := x <=? y.
(** COMPB_*, 378-383 *)
Definition tr (x : Z) : bool := negb (x =? 0).
Definition b_eq (x y : Z) := (tr x && tr y) || (negb (tr x) && negb (tr y)).
Definition b_gt (x y : Z) := tr x && negb (tr y).
Definition b_ge (x y : Z) := if tr y && negb (tr x) then false else true.
Definition b_lt (x y : Z) := tr y && negb (tr x).
Definition b_le (x y : Z) := if tr x && negb (tr y) then false else true.
Definition b_ne (x y : Z) := if (tr x && tr y) || (negb (tr x) && negb (tr y)) then false else true.

(** ---------- loops ---------- *)
Section Loops.
  Variables (sz B : Z).       (* item size of the inputs, bytes per register *)
  Variable cmp : Z -> Z -> bool.

  (** one register of an operand: LOADU(p + k) or MM_SET *)
  Definition rdr (m : bytes) (o : opd) (k : Z) : reg :=
    match o with
    | Ptr p _ => map (fun l => ld sz m (p + B * k + l * sz)) (zrange 0 (B / sz))
    | Val v => map (fun _ => v) (zrange 0 (B / sz))
    end.
  (** the [nreg] registers of round [k] *)
  Definition regs (nreg : Z) (m : bytes) (o : opd) (k : Z) : list reg :=
    map (fun r => rdr m o (nreg * k + r)) (zrange 0 nreg).

  (** for (i = 0; i < n; i++) out[i] = COMPARE(x[i], y[i]); also the while (pDataOutX < pEnd) and STRIDE_NEXT forms *)
  Definition cmp_loop (x y : opd) (out so n : Z) (m : bytes) : bytes :=
    fold_left (fun m i => st 1 m (out + i * so) (b2z (cmp (rd sz m x i) (rd sz m y i)))) (zrange 0 n) m.

  Variables (nreg W : Z) (comp : list reg -> list reg -> list Z).   (* registers per round, bools per round *)
  (** [q] rounds, W bools each *)
  Definition round_loop (x y : opd) (out q : Z) (m : bytes) : bytes :=
    fold_left (fun m k => storev 1 m (out + W * k) (comp (regs nreg m x k) (regs nreg m y k))) (zrange 0 q) m.
  (** vector rounds, then the scalar tail; [tx ty]: the tail's operands, in the memory after the rounds *)
  Definition fast (vx vy : opd) (tx ty : bytes -> opd) (out n q : Z) (m : bytes) : bytes :=
    let m1 := round_loop vx vy out q m in
    cmp_loop (tx m1) (ty m1) (out + W * q) 1 (n - q * W) m1.

  Definition generic (a1 a2 out n s1 s2 so : Z) (m : bytes) : bytes :=
    cmp_loop (Ptr a1 s1) (Ptr a2 s2) out so n m.

  (** The shape of all vectorised comparisons.  [q]: number of vector rounds; [once]: the tail's scalar operand is
      read once before the tail (CompareFloat/Double) or in every iteration; [ret]: the contiguous case returns. *)
  Definition CompareShape (q : Z) (once ret : bool) (a1 a2 out n s1 s2 so : Z) (m : bytes) : bytes :=
    let scal a := if once then (fun m1 => Val (ld sz m1 a)) else (fun _ => Ptr a 0) in
    let rest a := (fun _ : bytes => Ptr (a + B * nreg * q) sz) in
    if so =? 1 then
      if s1 =? 0 then
        if s2 =? sz then fast (Val (ld sz m a1)) (Ptr a2 sz) (scal a1) (rest a2) out n q m
        else generic a1 a2 out n s1 s2 so m
      else if s2 =? 0 then
        if s1 =? sz then fast (Ptr a1 sz) (Val (ld sz m a2)) (rest a1) (scal a2) out n q m
        else generic a1 a2 out n s1 s2 so m
      else if (s1 =? sz) && (s2 =? sz) then
        let m1 := fast (Ptr a1 sz) (Ptr a2 sz) (rest a1) (rest a2) out n q m in
        if ret then m1 else generic a1 a2 out (n - q * W) s1 s2 so m1
      else generic a1 a2 out n s1 s2 so m
    else generic a1 a2 out n s1 s2 so m.
End Loops.

Definition four (f : reg -> reg -> reg -> reg -> reg -> reg -> reg -> reg -> list Z) (xs ys : list reg) : list Z :=
  match xs, ys with [x1;x2;x3;x4], [y1;y2;y3;y4] => f x1 y1 x2 y2 x3 y3 x4 y4 | _, _ => [] end.
Definition one (f : reg -> reg -> list Z) (xs ys : list reg) : list Z :=
  match xs, ys with [x], [y] => f x y | _, _ => [] end.

Definition cfun := Z -> Z -> Z -> Z -> Z -> Z -> Z -> bytes -> bytes.   (* a1 a2 out len stride1 stride2 strideOut *)

(** CompareAny, 405-448 *)
Definition CompareAny (sz : Z) (cmp : Z -> Z -> bool) : cfun := fun a1 a2 out n s1 s2 so m =>
  if so =? 1 then
    if s1 =? 0 then
      if s2 =? sz then cmp_loop sz cmp (Val (ld sz m a1)) (Ptr a2 sz) out 1 n m else generic sz cmp a1 a2 out n s1 s2 so m
    else if s2 =? 0 then
      if s1 =? sz then cmp_loop sz cmp (Ptr a1 sz) (Val (ld sz m a2)) out 1 n m else generic sz cmp a1 a2 out n s1 s2 so m
    else if (s2 =? sz) && (s1 =? sz) then cmp_loop sz cmp (Ptr a1 sz) (Ptr a2 sz) out 1 n m
    else generic sz cmp a1 a2 out n s1 s2 so m
  else generic sz cmp a1 a2 out n s1 s2 so m.

(** CompareFloat, 454-600: 32 bools a round, [len / 32] rounds.  When both inputs are one array the second
    register is not loaded again (546-577): the same values. *)
Definition CompareFloat (opc cmp : Z -> Z -> bool) : cfun := fun a1 a2 out n s1 s2 so m =>
  CompareShape 4 32 cmp 4 32 (four (float_round opc)) (n / 32) true true a1 a2 out n s1 s2 so m.
(** CompareDouble, 604-783: __m128d registers, 8 bools a round *)
Definition CompareDouble (opc cmp : Z -> Z -> bool) : cfun := fun a1 a2 out n s1 s2 so m =>
  CompareShape 8 16 cmp 4 8 (four (double_round opc)) (n / 8) true true a1 a2 out n s1 s2 so m.
(** CompareInt64, 789-895: while (pDestFast < pDataOut + len - 16), i.e. ceil((len - 16) / 16) rounds *)
Definition rounds64 (n : Z) : Z := Z.max 0 ((n - 16 + 15) / 16).
Definition CompareInt64 (comp : reg -> reg -> reg -> reg -> reg -> reg -> reg -> reg -> list Z) (cmp : Z -> Z -> bool) : cfun :=
  fun a1 a2 out n s1 s2 so m =>
  CompareShape 8 32 cmp 4 16 (four comp) (rounds64 n) false true a1 a2 out n s1 s2 so m.
(** CompareInt32S, 902-1000 *)
Definition CompareInt32S (comp : reg -> reg -> reg -> reg -> reg -> reg -> reg -> reg -> list Z) (cmp : Z -> Z -> bool) : cfun :=
  fun a1 a2 out n s1 s2 so m =>
  CompareShape 4 32 cmp 4 32 (four comp) (n / 32) false true a1 a2 out n s1 s2 so m.
(** CompareInt32, 1004-1078 *)
Definition CompareInt32 (comp : reg -> reg -> Z) (cmp : Z -> Z -> bool) : cfun := fun a1 a2 out n s1 s2 so m =>
  CompareShape 4 32 cmp 1 8 (one (fun x y => word_bytes 8 (comp x y))) (n / 8) false true a1 a2 out n s1 s2 so m.
(** CompareInt16, 1083-1160 *)
Definition CompareInt16 (comp : reg -> reg -> reg -> list Z) (cmp : Z -> Z -> bool) : cfun := fun a1 a2 out n s1 s2 so m =>
  CompareShape 2 32 cmp 1 16 (one (fun x y => comp x y mask16)) (n / 16) false true a1 a2 out n s1 s2 so m.
(** CompareInt8, 1165-1254: no return after the contiguous case *)
Definition CompareInt8 (comp : reg -> reg -> reg -> list Z) (cmp : Z -> Z -> bool) : cfun := fun a1 a2 out n s1 s2 so m =>
  CompareShape 1 32 cmp 1 32 (one (fun x y => comp x y g_ones)) (n / 32) false false a1 a2 out n s1 s2 so m.

(** ---------- dispatch: GetComparisonOpFast with equal input types, 1267-1446 ---------- *)
Inductive cop := CMP_EQ | CMP_NE | CMP_GT | CMP_GTE | CMP_LT | CMP_LTE.
Inductive cty := I (t : ity) | FLOAT | DOUBLE.
Definition fops (f : fmt) (c : cop) : Z -> Z -> bool :=
  match c with CMP_EQ => f_eq f | CMP_NE => f_ne f | CMP_GT => f_gt f | CMP_GTE => f_ge f | CMP_LT => f_lt f | CMP_LTE => f_le f end.
Definition sops (w : Z) (c : cop) : Z -> Z -> bool :=
  match c with CMP_EQ => s_eq w | CMP_NE => s_ne w | CMP_GT => s_gt w | CMP_GTE => s_ge w | CMP_LT => s_lt w | CMP_LTE => s_le w end.

Definition GetComparisonOpFast (c : cop) (t : cty) : cfun :=
  match t with
  | FLOAT => CompareFloat (fops FLT c) (fops FLT c)
  | DOUBLE => CompareDouble (fops DBL c) (fops DBL c)
  | I INT32 => match c with
      | CMP_EQ => CompareInt32S COMP32i_EQS (s_eq 32)
      | CMP_NE => CompareInt32 COMP32i_NE (s_ne 32)
      | CMP_GT => CompareInt32 COMP32i_GT (s_gt 32)
      | CMP_GTE => CompareInt32 COMP32i_GE (s_ge 32)
      | CMP_LT => CompareInt32 COMP32i_LT (s_lt 32)
      | CMP_LTE => CompareInt32 COMP32i_LE (s_le 32) end
  | I UINT32 => match c with
      | CMP_EQ => CompareInt32 COMP32i_EQ (s_eq 32)
      | CMP_NE => CompareInt32 COMP32i_NE (s_ne 32)
      | CMP_GT => CompareAny 4 u_gt | CMP_GTE => CompareAny 4 u_ge
      | CMP_LT => CompareAny 4 u_lt | CMP_LTE => CompareAny 4 u_le end
  | I INT64 => match c with
      | CMP_EQ => CompareInt64 COMP64i_EQ (s_eq 64)
      | CMP_NE => CompareInt64 COMP64i_NE (s_ne 64)
      | CMP_GT => CompareInt64 COMP64i_GT (s_gt 64)
      | CMP_GTE => CompareInt64 COMP64i_GE (s_ge 64)
      | CMP_LT => CompareInt64 COMP64i_LT (s_lt 64)
      | CMP_LTE => CompareInt64 COMP64i_LE (s_le 64) end
  | I UINT64 => match c with
      | CMP_EQ => CompareInt64 COMP64i_EQ (s_eq 64)
      | CMP_NE => CompareInt64 COMP64i_NE (s_ne 64)
      | CMP_GT => CompareAny 8 u_gt | CMP_GTE => CompareAny 8 u_ge
      | CMP_LT => CompareAny 8 u_lt | CMP_LTE => CompareAny 8 u_le end
  | I BOOL => match c with
      | CMP_EQ => CompareInt8 COMPBool_EQ b_eq
      | CMP_NE => CompareInt8 COMPBool_NE b_ne
      | CMP_GT => CompareInt8 COMPBool_GT b_gt
      | CMP_GTE => CompareInt8 COMPBool_GE b_ge
      | CMP_LT => CompareInt8 COMPBool_LT b_lt
      | CMP_LTE => CompareInt8 COMPBool_LE b_le end
  | I INT8 => match c with
      | CMP_EQ => CompareInt8 COMP8i_EQ (s_eq 8)
      | CMP_NE => CompareInt8 COMP8i_NE (s_ne 8)
      | CMP_GT => CompareInt8 COMP8i_GT (s_gt 8)
      | CMP_GTE => CompareInt8 COMP8i_GE (s_ge 8)
      | CMP_LT => CompareInt8 COMP8i_LT (s_lt 8)
      | CMP_LTE => CompareInt8 COMP8i_LE (s_le 8) end
  | I UINT8 => match c with
      | CMP_EQ => CompareInt8 COMP8i_EQ (s_eq 8)
      | CMP_NE => CompareInt8 COMP8i_NE (s_ne 8)
      | CMP_GT => CompareAny 1 u_gt | CMP_GTE => CompareAny 1 u_ge
      | CMP_LT => CompareAny 1 u_lt | CMP_LTE => CompareAny 1 u_le end
  | I INT16 => match c with
      | CMP_EQ => CompareInt16 COMP16i_EQ (s_eq 16)
      | CMP_NE => CompareInt16 COMP16i_NE (s_ne 16)
      | CMP_GT => CompareInt16 COMP16i_GT (s_gt 16)
      | CMP_GTE => CompareInt16 COMP16i_GE (s_ge 16)
      | CMP_LT => CompareInt16 COMP16i_LT (s_lt 16)
      | CMP_LTE => CompareInt16 COMP16i_LE (s_le 16) end
  | I UINT16 => match c with
      | CMP_EQ => CompareInt16 COMP16i_EQ (s_eq 16)
      | CMP_NE => CompareInt16 COMP16i_NE (s_ne 16)
      | CMP_GT => CompareAny 2 u_gt | CMP_GTE => CompareAny 2 u_ge
      | CMP_LT => CompareAny 2 u_lt | CMP_LTE => CompareAny 2 u_le end
  end.

(** ---------- mixed signed/unsigned 64-bit, 385-397, 1331-1341, 1353-1364 ---------- *)
Definition highbit : Z := 9223372036854775808.   (* 0x8000000000000000 *)
Definition hi_set (x y : Z) : bool := negb (Z.land (Z.lor x y) highbit =? 0).
Definition COMP_GT_INT64 x y := if hi_set x y then false else s_gt 64 x y.
Definition COMP_GE_INT64 x y := if hi_set x y then false else s_ge 64 x y.
Definition COMP_LT_INT64 x y := if hi_set x y then true else s_lt 64 x y.
Definition COMP_LE_INT64 x y := if hi_set x y then true else s_le 64 x y.
Definition COMP_EQ_UINT64 x y := if hi_set x y then false else s_eq 64 x y.
Definition COMP_NE_UINT64 x y := if hi_set x y then true else s_ne 64 x y.
Definition COMP_GT_UINT64 x y := if hi_set x y then true else u_gt x y.
Definition COMP_GE_UINT64 x y := if hi_set x y then true else u_ge x y.
Definition COMP_LT_UINT64 x y := if hi_set x y then false else u_lt x y.
Definition COMP_LE_UINT64 x y := if hi_set x y then false else u_le x y.
(** int64 op uint64: 1331-1341 *)
Definition mixed_iu (c : cop) : Z -> Z -> bool :=
  match c with CMP_EQ => COMP_EQ_UINT64 | CMP_NE => COMP_NE_UINT64 | CMP_GT => COMP_GT_INT64 | CMP_GTE => COMP_GE_INT64
             | CMP_LT => COMP_LT_INT64 | CMP_LTE => COMP_LE_INT64 end.
(** uint64 op int64: 1353-1364 *)
Definition mixed_ui (c : cop) : Z -> Z -> bool :=
  match c with CMP_EQ => s_eq 64 | CMP_NE => s_ne 64 | CMP_GT => COMP_GT_UINT64 | CMP_GTE => COMP_GE_UINT64
             | CMP_LT => COMP_LT_UINT64 | CMP_LTE => COMP_LE_UINT64 end.
