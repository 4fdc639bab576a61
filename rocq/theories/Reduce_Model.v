(** Reduce_Model.v - reductions: src/pnumpy/_pnumpy.cpp:359-445, 605-732 and the reduce kernels
    src/atop/ops_binary.cpp:186-340.

    Memory is a function [rd] from byte address to the element stored there (one element per address; an
    address nobody wrote holds an arbitrary value). *)
From Verif Require Import Base Threads_Model.

Section Kernels.
  Context {T : Type}.

  (** A reduce kernel: REDUCE_FUNC(pDataIn1, pDataOut, pStartVal, datalen, strideIn); the result is the value
      it stores in *pDataOut. *)
  Definition kernel := (Z -> T) -> Z -> T -> Z -> Z -> T.

  (** numpy's own loop called with IS_BINARY_REDUCE arguments (args[0]=args[2]=accumulator, steps 0, stride, 0):
      acc = op(acc, x[i]) in order.  Trusted description of numpy, not code of /repo; pairwise summation of
      floats is not modelled. *)
  Definition numpy_loop (op : T -> T -> T) : kernel := fun rd p start n stride =>
    fold_left (fun acc i => op acc (rd (p + i * stride))) (zrange 0 n) start.

  (** ReduceMathOpFast, ops_binary.cpp:186-255.  [op] is MATH_OP, applied lane by lane for MATH_OP256;
      [L] = perReg = sizeof(U256)/sizeof(T) lanes; [sz] = sizeof(T); [p] = pDataIn1.
      The pointer pDataIn1/pDataIn256 is kept as an element index. *)
  Definition lanes (L : Z) := zrange 0 L.

  Definition vec_load (rd : Z -> T) (p sz : Z) (idx : Z) : Z -> T := fun lane => rd (p + (idx + lane) * sz).

  Definition vec_op (op : T -> T -> T) (a b : Z -> T) : Z -> T := fun lane => op (a lane) (b lane).

  (* l.214-218: while (pDataIn256 < pEnd_256); [c] counts pairs of registers *)
  Definition vec_loop (op : T -> T -> T) (rd : Z -> T) (p sz L q : Z) (m : (Z -> T) * (Z -> T)) :=
    fold_left (fun m c => (vec_op op (fst m) (vec_load rd p sz (2 * L * c)),
                           vec_op op (snd m) (vec_load rd p sz (2 * L * c + L)))) (zrange 1 q) m.

  (* l.236-239: startval = MATH_OP(horizontal[i], startval) *)
  Definition horizontal (op : T -> T -> T) (L : Z) (m : Z -> T) (start : T) : T :=
    fold_left (fun a lane => op (m lane) a) (lanes L) start.

  (* l.244-247: while (pDataIn1 != pEnd); from element [i0] *)
  Definition tail_loop (op : T -> T -> T) (rd : Z -> T) (p stride i0 n : Z) (start : T) : T :=
    fold_left (fun a i => op (rd (p + i * stride)) a) (zrange i0 n) start.

  Definition ReduceMathOpFast (op : T -> T -> T) (L sz : Z) : kernel := fun rd p start n stride =>
    if negb (stride =? 0) then
      let chunkSize := 2 * L in
      if (stride =? sz) && (chunkSize <=? n) then
        let q := n / chunkSize in
        let m := vec_loop op rd p sz L q (vec_load rd p sz 0, vec_load rd p sz L) in
        let m0 := vec_op op (fst m) (snd m) in
        let start' := horizontal op L m0 start in
        tail_loop op rd p stride (chunkSize * q) n start'
      else tail_loop op rd p stride 0 n start
    else (* l.247-254: stride 0 *)
      fold_left (fun a _ => op (rd p) a) (zrange 0 n) start.
End Kernels.

(** ReduceMathOpFastUpcast, ops_binary.cpp:258-340 (float32 sum and product): registers hold 8 floats,
    accumulators 4 doubles each.  [None] = a read outside the 4-element array "horizontal" (undefined behaviour). *)
Section Upcast.
  Context {D U : Type} (up : D -> U) (down : U -> D) (op : U -> U -> U).

  Definition up_load (rd : Z -> D) (p sz idx : Z) : Z -> U := fun lane => up (rd (p + (idx + lane) * sz)).

  (* l.290-301 *)
  Definition up_loop (rd : Z -> D) (p sz q : Z) (m : (Z -> U) * (Z -> U) * (Z -> U) * (Z -> U)) :=
    fold_left (fun m c => let '(a, b, d, e) := m in
        (vec_op op a (up_load rd p sz (16 * c)), vec_op op b (up_load rd p sz (16 * c + 4)),
         vec_op op d (up_load rd p sz (16 * c + 8)), vec_op op e (up_load rd p sz (16 * c + 12))))
      (zrange 1 q) m.

  (* l.308-321: union { UPCAST horizontal[sizeof(U256d)/sizeof(UPCAST)]; U256d mathreg[1]; } has 4 elements,
     the loop runs to perReg = sizeof(U256)/sizeof(DOWNCAST) = 8 *)
  Definition up_horizontal (m : Z -> U) (perReg size : Z) (start : U) : option U :=
    fold_left (fun a lane => match a with
                             | Some v => if lane <? size then Some (op (m lane) v) else None
                             | None => None end) (zrange 0 perReg) (Some start).

  Definition up_tail (rd : Z -> D) (p stride i0 n : Z) (start : U) : U :=
    fold_left (fun a i => op (up (rd (p + i * stride))) a) (zrange i0 n) start.

  Definition ReduceMathOpFastUpcast (sz : Z) (rd : Z -> D) (p : Z) (start : D) (n stride : Z) : option D :=
    if negb (stride =? 0) then
      if (stride =? sz) && (16 <=? n) then
        let q := n / 16 in
        let '(m10, m11, m12, m13) := up_loop rd p sz q
            (up_load rd p sz 0, up_load rd p sz 4, up_load rd p sz 8, up_load rd p sz 12) in
        let m10 := vec_op op m10 m11 in
        let m12 := vec_op op m12 m13 in
        let m10 := vec_op op m10 m12 in
        match up_horizontal m10 8 4 (up start) with
        | Some s => Some (down (up_tail rd p stride (16 * q) n s))
        | None => None
        end
      else Some (down (up_tail rd p stride 0 n (up start)))
    else
      Some (down (fold_left (fun a _ => op (up (rd p)) a) (zrange 0 n) (up start))).
End Upcast.

(** ------------------------------------------------------------------ *)
(** The threaded reduction: the engine of Threads_Model with a second memory, the buffer pReduceOfReduce,
    indexed by chunk number. *)
Section Threaded.
  Context {T : Type}.

  (** UFUNC_CALLBACK as AtopBinaryMathFunction fills it, _pnumpy.cpp:671-684: input pointer and stride, the start
      value used for each chunk, and the function applied to a chunk (pReduceFunc or pOldFunc). *)
  Record redcall := mkRed {
    r_in : Z;          (* ip2 = args[1] *)
    r_stride : Z;      (* itemSizeIn2 = steps[1] *)
    r_init : T;        (* *op1, the caller's initial value *)
    r_special : option T;  (* GetReduceStartVal: Some 0 for ADD, Some 1 for MUL, None otherwise (l.605-632) *)
    r_kernel : @kernel T
  }.

  (* l.679: pStartVal = pstartval == NULL ? op1 : pstartval *)
  Definition start_val (r : redcall) : T := match r_special r with Some v => v | None => r_init r end.

  (** value stored for a chunk: _pnumpy.cpp:372-376 (strided) and 403-435 (numpy):
      input offset BlockSize*workBlock*itemSizeIn2, length lenX, output slot workBlock. *)
  Definition chunk_value (r : redcall) (rd : Z -> T) (blockSize lb len : Z) : T :=
    r_kernel r rd (r_in r + blockSize * lb * r_stride r) (start_val r) len (r_stride r).

  (** The element machine drives the engine; its own memory is unused ([unit] elements). *)
  Definition no_ufunc : ufunc unit := mkUfunc unit 0 0 0 0 0 0 (fun _ _ => tt).

  Record rstate := mkR { eng : state unit; part : Z -> T }.

  (** One step: the engine's step; when a thread processes the last element of chunk lb it stores the
      chunk's value in slot lb (nobody else reads the slot before WorkMain returns). *)
  Definition rstep (r : redcall) (rd : Z -> T) (c : Z) (s : rstate) : rstate :=
    mkR (step no_ufunc c (eng s))
        (match pcs (eng s) c with
         | Work lb len k =>
             if k + 1 =? len then zupd (part s) lb (chunk_value r rd (BlockSize (it (eng s))) lb len) else part s
         | _ => part s
         end).

  Definition rrun (r : redcall) (rd : Z -> T) (s : rstate) (sched : list Z) : rstate :=
    fold_left (fun s c => rstep r rd c s) sched s.

  (** [junk]: whatever the stack buffer contained before *)
  Definition rstart (n wakeup : Z) (zz : bool) (junk : Z -> T) : rstate :=
    mkR (start n wakeup zz (fun _ => tt)) junk.

  (** _pnumpy.cpp:667 *)
  Definition red_chunks (n : Z) : Z := 1 + (n - 1) / WORK_ITEM_CHUNK.

  (** The buffer as memory at addresses 0 .. chunks*itemsize-1; every other address, and every address that is not
      a multiple of itemsize, yields a value the reduction never computed ([wild]). *)
  Definition buffer (part : Z -> T) (itemsize chunks : Z) (wild : Z -> T) : Z -> T := fun a =>
    if (a mod itemsize =? 0) && (0 <=? a) && (a <? chunks * itemsize) then part (a / itemsize) else wild a.

  (** After WorkMain, kernel path, l.698: pReduceFunc(pReduceOfReduce, op1, op1, chunks, itemsize). *)
  Definition finish_kernel (r : redcall) (itemsize n : Z) (wild : Z -> T) (p : Z -> T) : T :=
    r_kernel r (buffer p itemsize (red_chunks n) wild) 0 (r_init r) (red_chunks n) itemsize.

  (** After WorkMain, numpy path, l.717-727: pOldFunc(newargs, {chunks}, steps, innerloop) with the caller's steps:
      the stride used over the buffer is steps[1], the stride of the original array. *)
  Definition finish_numpy (r : redcall) (itemsize n : Z) (wild : Z -> T) (p : Z -> T) : T :=
    r_kernel r (buffer p itemsize (red_chunks n) wild) 0 (r_init r) (red_chunks n) (r_stride r).

  (** Unthreaded: l.651-662: one call of the same function over the whole array from *op1. *)
  Definition reduce_unthreaded (r : redcall) (rd : Z -> T) (n : Z) : T :=
    r_kernel r rd (r_in r) (r_init r) n (r_stride r).
End Threaded.
Arguments redcall : clear implicits.
Arguments mkRed : clear implicits.
Arguments rstate : clear implicits.

(** Element operations of the integer reduce kernels (ops_binary.cpp:27-50 scalar templates, C arithmetic on a
    w-bit type; the value is kept as its unsigned residue). *)
Definition wrap (w x : Z) : Z := x mod 2 ^ w.
Definition add_w (w x y : Z) : Z := wrap w (x + y).
Definition mul_w (w x y : Z) : Z := wrap w (x * y).
