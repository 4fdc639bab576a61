(** Mask_Model.v - boolean-mask getitem: src/pnumpy/getitem.cpp:22-575. *)
From Verif Require Import Base Threads_Model Jobs_Model.

(** ---- SumBooleanMask, getitem.cpp:22-145 ---- *)
(** bytes are unsigned values 0..255; a 256-bit register of 32 bytes is a function lane -> value *)

(* l.86: _mm256_min_epu8(ones, data) *)
Definition cstyle (b : Z) : Z := Z.min 1 b.
(* l.90: _mm256_add_epi8 *)
Definition add8 (x y : Z -> Z) : Z -> Z := fun l => (x l + y l) mod 2 ^ 8.
(* l.96-113: unpacklo/unpackhi with zeros, then add at twice the width.  Both 128-bit halves are treated alike:
   with [per] result elements per half, result k of half h is element (h,k) plus element (h,per+k). *)
Definition widen_add (width per : Z) (x : Z -> Z) : Z -> Z := fun l =>
  (x (l / per * (2 * per) + l mod per) + x (l / per * (2 * per) + per + l mod per)) mod 2 ^ width.
(* l.96-124 *)
Definition horizontal_sum (x : Z -> Z) : Z :=
  let c16 := widen_add 16 8 x in
  let c32 := widen_add 32 4 c16 in
  let c64 := widen_add 64 2 c32 in
  c64 0 + c64 1 + c64 2 + c64 3.

(* l.78-91: [iters] inner iterations from vector [i] *)
Definition inner_loop (data : Z -> Z) (i iters : Z) : Z -> Z :=
  fold_left (fun acc j => add8 acc (fun l => cstyle (data (32 * (i + j) + l)))) (zrange 0 iters) (fun _ => 0).

(* l.67-128: outer loop; [fuel] bounds the number of outer iterations (each consumes at least one vector) *)
Fixpoint outer_loop (fuel : nat) (data : Z -> Z) (vlen i : Z) (result : Z) : Z :=
  match fuel with
  | O => result
  | S f =>
      if i <? vlen then
        let iters := if vlen - i >? 255 then 255 else vlen - i in
        outer_loop f data vlen (i + iters) (result + horizontal_sum (inner_loop data i iters))
      else result
  end.

Definition SumBooleanMask (data : Z -> Z) (length stride : Z) : Z :=
  if length <? 0 then 0
  else if stride =? 1 then
    let vlen := length / 32 in
    let r := outer_loop (Z.to_nat vlen) data vlen 0 0 in
    (* l.131-138 *)
    fold_left (fun r i => if negb (data i =? 0) then r + 1 else r) (zrange (vlen * 32) length) r
  else
    fold_left (fun r i => if negb (data (i * stride) =? 0) then r + 1 else r) (zrange 0 length) 0.

(** ---- BooleanCount, getitem.cpp:153-211: per-chunk counts ---- *)
(* l.183-201: the callback; one write of pChunkCount[start / WORK_ITEM_CHUNK] *)
Definition count_prog (mask : Z -> Z) (strideB : Z) (st len : Z) : list (micro unit Z) :=
  [fun _ m => (tt, Some (st / WORK_ITEM_CHUNK, SumBooleanMask (fun i => mask (st * strideB + i)) len strideB))].

(* l.166-168 *)
Definition mask_chunks (n : Z) : Z :=
  ((if n >? 1 then n else 1) + (WORK_ITEM_CHUNK - 1)) / WORK_ITEM_CHUNK.

(* BooleanIndexInternal l.256-262: exclusive prefix sums, total *)
Definition prefix_sums (chunks : Z) (counts : Z -> Z) : Z * (Z -> Z) :=
  fold_left (fun tc i => (fst tc + counts i, zupd (snd tc) i (fst tc))) (zrange 0 chunks) (0, counts).

(** ---- the copy callback, getitem.cpp:293-556 ---- *)
Record maskcopy (V : Type) := mkMC {
  mc_mask : Z -> Z;        (* pBooleanMask, bytes *)
  mc_strideB : Z;
  mc_val : Z -> V;         (* value array: byte address -> item *)
  mc_in : Z;               (* pValuesIn *)
  mc_strideV : Z;
  mc_out : Z;              (* pValuesOut *)
  mc_itemSize : Z;
  mc_offs : Z -> Z         (* pChunkCount after the prefix sums *)
}.
Arguments mkMC {V}. Arguments mc_mask {V}. Arguments mc_strideB {V}. Arguments mc_val {V}. Arguments mc_in {V}.
Arguments mc_strideV {V}. Arguments mc_out {V}. Arguments mc_itemSize {V}. Arguments mc_offs {V}.

Section Copy.
  Context {V : Type} (q : maskcopy V).

  (* l.307: pValuesOut[chunkCount * itemSize]; the local is the output pointer *)
  Definition op_enter (st : Z) : micro Z V := fun _ m =>
    (mc_out q + mc_offs q (st / WORK_ITEM_CHUNK) * mc_itemSize q, None).

  (* one element: "if (bit) { *pVOut = *pVIn; advance } pVIn += strideValues"; [adv] is the advance of the output *)
  Definition op_elem (st i adv : Z) (bit : bool) : micro Z V := fun out m =>
    if bit then (out + adv, Some (out, mc_val q (mc_in q + st * mc_strideV q + i * mc_strideV q))) else (out, None).

  (* l.325: uint64_t bitmask = *(uint64_t* )pData, little endian *)
  Definition load64 (b : Z -> Z) : Z :=
    fold_left (fun acc j => acc + b j * 2 ^ (8 * j)) (zrange 0 8) 0.

  (* l.329-336: eight booleans at a time, skipped when all zero *)
  Definition block_ops (st i : Z) : list (micro Z V) :=
    let bitmask := load64 (fun j => mc_mask q (st + 8 * i + j)) in
    if negb (bitmask =? 0) then
      map (fun j => op_elem st (8 * i + j) (mc_itemSize q) (negb (Z.land (Z.shiftr bitmask (8 * j)) 255 =? 0))) (zrange 0 8)
    else [].

  (* item sizes with their own case; the others use memcpy (l.448-484) *)
  Definition typed_size (s : Z) : bool := (s =? 1) || (s =? 2) || (s =? 4) || (s =? 8).

  (* l.476-482: in the memcpy case the tail advances the output by strideValues *)
  Definition tail_adv : Z := if typed_size (mc_itemSize q) then mc_itemSize q else mc_strideV q.

  Definition copy_prog (st len : Z) : list (micro Z V) :=
    op_enter st ::
    if mc_strideB q =? 1 then
      flat_map (block_ops st) (zrange 0 (len / 8)) ++
      map (fun i => op_elem st i tail_adv (negb (mc_mask q (st + i) =? 0))) (zrange (8 * (len / 8)) len)
    else
      map (fun i => op_elem st i (mc_itemSize q) (negb (mc_mask q (st * mc_strideB q + i * mc_strideB q) =? 0))) (zrange 0 len).
End Copy.

(** ---- BooleanIndexInternal, getitem.cpp:219-575 ---- *)
(** [n] elements (both arrays), mask bytes at [mask (i * strideB)], values at [inp + i * strideV], the result buffer at
    [out]; [junk]: what WORKSPACE_ALLOC returned for pChunkCount; [m0]/[m']: the result buffer and everything around it
    before and after (item-granular: one cell per item address).  [h1]/[h2]: how the two threaded calls ran.
    Simplified: allocation does not fail; the dtype/shape checks of l.227-247 have passed. *)
Definition boolean_index {V} (n : Z) (mask : Z -> Z) (strideB : Z) (val : Z -> V) (inp strideV out itemSize : Z)
    (junk : Z -> Z) (h1 h2 : how) (m0 m' : memory V) (total : Z) : Prop :=
  exists counts,
    chunk_call (count_prog mask strideB) tt n h1 junk counts /\
    (* l.207-209: didMtWork ? chunks : 1 *)
    let chunks := if is_threaded h1 then mask_chunks n else 1 in
    let ps := prefix_sums chunks counts in
    total = fst ps /\
    if total >? 0
    then chunk_call (copy_prog (mkMC mask strideB val inp strideV out itemSize (snd ps))) 0 n h2 m0 m'
    else m' = m0.
