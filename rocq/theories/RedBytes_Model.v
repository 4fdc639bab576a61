(** RedBytes_Model.v - a hooked reduction (np.sum, np.prod, np.min, np.max, ...) at the level of single byte accesses, alone or
    on worker threads with store buffers (the machine of Ufunc_Model.v).
    Sources: the reduction branch of AtopBinaryMathFunction, src/pnumpy/_pnumpy.cpp:646-727; the callbacks
    ReduceThreadCallbackStrided 359-385 and ReduceThreadCallbackNumpy 389-444; GetReduceStartVal 588-632;
    ReduceMathOpFast and its table, src/atop/ops_binary.cpp:186-255, 1061-1125.
    Not modelled: ReduceMathOpFastUpcast (float32 sum and product; Reduce_Model.v, C13). *)
From Verif Require Import Base Threads_Model Jobs_Model Sort_Model Kernel_Model Float_Model Compare_Model Unary_Model Round_Model Arith_Model Ufunc_Model.

(** for (i in l) acc = f(acc, i) *)
Fixpoint foldp {A} (l : list Z) (f : A -> Z -> bprog A) (a : A) : bprog A :=
  match l with [] => Ret a | i :: r => let! a' := f a i in foldp r f a' end.

Section Kernel.
  Variables (sz : Z) (op opv : Z -> Z -> Z).      (* MATH_OP, and one lane of MATH_OP256 *)

  (** ReduceMathOpFast(pDataIn1X, pDataOutX, pStartVal, datalen, strideIn), ops_binary.cpp:187-255.
      The while loop of l.238 steps by strideIn until it meets pEnd: datalen rounds less those the vector loop did. *)
  Definition tailp (pin stride i0 n s : Z) : bprog Z :=
    foldp (zrange i0 n) (fun a i => let! v := pld sz (pin + i * stride) in Ret (op v a)) s.
  Definition vectorp (pin q s : Z) : bprog Z :=                                          (* l.206-232 *)
    let! m0 := ploadv sz pin in
    let! m1 := ploadv sz (pin + 32) in
    let! m := foldp (zrange 1 q) (fun m c =>
        let! x := ploadv sz (pin + 64 * c) in
        let! y := ploadv sz (pin + 64 * c + 32) in
        Ret (lanes2 opv (fst m) x, lanes2 opv (snd m) y)) (m0, m1) in
    Ret (fold_left (fun a v => op v a) (lanes2 opv (fst m) (snd m)) s).
  Definition pReduce (pin pout pstart n stride : Z) : bprog unit :=
    let! startval := pld sz pstart in
    if negb (stride =? 0) then
      let chunkSize := 2 * perReg sz in
      if (stride =? sz) && (chunkSize <=? n) then
        let! s := vectorp pin (n / chunkSize) startval in
        let! s := tailp pin stride (chunkSize * (n / chunkSize)) n s in pst sz pout s
      else let! s := tailp pin stride 0 n startval in pst sz pout s
    else
      let! s := foldp (zrange 0 n) (fun a _ => let! v := pld sz pin in Ret (op v a)) startval in pst sz pout s.

  (** NumPy's own loop on reduction arguments (args[0] = args[2] = accumulator, steps 0, stride, 0): acc = op(acc, x[i]).
      Trusted description of NumPy; pairwise summation of floats is not modelled. *)
  Definition pNumpyReduce (pin pacc n stride : Z) : bprog unit :=
    let! s := pld sz pacc in
    let! s := foldp (zrange 0 n) (fun a i => let! v := pld sz (pin + i * stride) in Ret (op a v)) s in
    pst sz pacc s.
End Kernel.

(** which function: pReduceFunc if there is one and pnumpy is enabled, else pOldFunc; _pnumpy.cpp:655-662, 690-704 *)
Inductive rkernel := RFast (op opv : Z -> Z -> Z) | RNumpy (op : Z -> Z -> Z).
Definition rchosen (enabled : bool) (found : option ((Z -> Z -> Z) * (Z -> Z -> Z))) (nop : Z -> Z -> Z) : rkernel :=
  match found with
  | Some (op, opv) => if enabled then RFast op opv else RNumpy nop
  | None => RNumpy nop
  end.

(** unthreaded: l.653-663 *)
Definition whole_reduce (k : rkernel) (sz ip2 op1 n stride : Z) : bprog unit :=
  match k with
  | RFast op opv => pReduce sz op opv ip2 op1 op1 n stride
  | RNumpy op => pNumpyReduce sz op ip2 op1 n stride
  end.
(** one turn of the while loop of ReduceThreadCallbackStrided (l.371-376) or ReduceThreadCallbackNumpy (l.401-436);
    [buf] = pReduceOfReduce, [pstart] = pStartVal.  The switch of l.419-432 copies 1, 2, 4 or 8 bytes, other sizes nothing. *)
Definition on_chunk (k : rkernel) (sz ip2 buf pstart stride : Z) (workBlock lenX : Z) : bprog unit :=
  let pin := ip2 + WORK_ITEM_CHUNK * workBlock * stride in
  let slot := buf + workBlock * sz in
  match k with
  | RFast op opv => pReduce sz op opv pin slot pstart lenX stride
  | RNumpy op =>
      (if (sz =? 1) || (sz =? 2) || (sz =? 4) || (sz =? 8) then let! v := pld sz pstart in pst sz slot v else Ret tt) ;;
      pNumpyReduce sz op pin slot lenX stride
  end.
(** l.668: chunks *)
Definition chunks_of (n : Z) : Z := 1 + (n - 1) / WORK_ITEM_CHUNK.
(** after WorkMain: l.698 (kernel; stride itemsize) and 712-724 (NumPy's loop; with the steps of the CALL) *)
Definition finish_reduce (k : rkernel) (sz buf op1 n stride : Z) : bprog unit :=
  match k with
  | RFast op opv => pReduce sz op opv buf op1 op1 (chunks_of n) sz
  | RNumpy op => pNumpyReduce sz op buf op1 (chunks_of n) stride
  end.

(** The whole call.  Threaded: the blocks by the caller and T workers in any interleaving, then the caller's last loop. *)
Definition red_faults (k : rkernel) (sz ip2 stride op1 buf pstart n : Z) (h : how) (m : bytes) : Prop :=
  match h with
  | Alone => solo (whole_reduce k sz ip2 op1 n stride) m = None
  | Threaded T zz sched => WORK_ITEM_BIG <= n /\ 0 <= T /\
      let s := tu (trun (on_chunk k sz ip2 buf pstart stride) (tstart n T zz m) sched) in
      ufault s = true \/ (pcs (eng s) 0 = Returned /\ solo (finish_reduce k sz buf op1 n stride) (umem s) = None)
  end.
Definition red_ends (k : rkernel) (sz ip2 stride op1 buf pstart n : Z) (h : how) (m m' : bytes) : Prop :=
  match h with
  | Alone => solo (whole_reduce k sz ip2 op1 n stride) m = Some m'
  | Threaded T zz sched => WORK_ITEM_BIG <= n /\ 0 <= T /\
      let s := tu (trun (on_chunk k sz ip2 buf pstart stride) (tstart n T zz m) sched) in
      pcs (eng s) 0 = Returned /\ solo (finish_reduce k sz buf op1 n stride) (umem s) = Some m'
  end.

(** ---------- the tables ---------- *)
Definition u_min (x y : Z) : Z := if x <? y then x else y.            (* MinOp<uintN_t>, ops_binary.cpp:62 *)
Definition u_max (x y : Z) : Z := if x >? y then x else y.            (* MaxOp<uintN_t>, l.63 *)
(** GetReduceMathOpFast, ops_binary.cpp:1061-1125: integer and boolean entries (scalar operation, lane operation);
    _mm256_min_epu8..32, max_epu: Z.min and Z.max of the lanes *)
Definition rtable (f : ufn) (t : ity) : option ((Z -> Z -> Z) * (Z -> Z -> Z)) :=
  let w := width t in
  match f, t with
  | ADD, BOOL => Some (Z.lor, Z.lor)
  | ADD, (INT32 | INT64 | INT16 | INT8) => Some (s_add w, v_add w)
  | MUL, BOOL => Some (Z.land, Z.land)
  | MUL, (INT32 | INT16) => Some (s_mul w, v_mullo w)
  | MUL, UINT64 => Some (u_mul w, MUL_OP_256u64)
  | MINIMUM, (BOOL | INT8 | INT16 | INT32) => Some (s_min w, v_min w)
  | MINIMUM, (UINT8 | UINT16 | UINT32) => Some (u_min, Z.min)
  | MAXIMUM, (BOOL | INT8 | INT16 | INT32) => Some (s_max w, v_max w)
  | MAXIMUM, (UINT8 | UINT16 | UINT32) => Some (u_max, Z.max)
  | _, _ => None
  end.
(** the float64 entries: ADD and MUL, l.1071, 1086 *)
Definition dtable (u : fop) : option ((Z -> Z -> Z) * (Z -> Z -> Z)) :=
  match u with
  | FADD => Some (f_add DBL, f_add DBL)
  | FMUL => Some (f_mul DBL, f_mul DBL)
  | _ => None
  end.

(** the start values, _pnumpy.cpp:588-597: global arrays, byte by byte *)
Inductive gvar := g_startval_zero | g_startval_one | g_startval_one_double.
Definition gbytes (g : gvar) : list Z :=
  match g with
  | g_startval_zero => [0;0;0;0;0;0;0;0;0;0;0;0;0;0;0;0]
  | g_startval_one => [1;0;0;0;0;0;0;0;0;0;0;0;0;0;0;0]
  | g_startval_one_double => [0;0;0;0;0;0;240;63;0;0;0;0;0;0;240;63]
  end.
(** GetReduceStartVal, l.605-632, for the integer and boolean types and float64; None = NULL *)
Inductive aty := AInt (t : ity) | ADouble.
Definition GetReduceStartVal (f : ufn) (t : aty) : option gvar :=
  match f, t with
  | ADD, _ => Some g_startval_zero
  | MUL, AInt _ => Some g_startval_one
  | MUL, ADouble => Some g_startval_one_double
  | _, _ => None
  end.
(** l.679: stCallback.pStartVal; [at_] gives the addresses of the globals *)
Definition start_ptr (at_ : gvar -> Z) (f : ufn) (t : aty) (op1 : Z) : Z :=
  match GetReduceStartVal f t with Some g => at_ g | None => op1 end.
(** the globals hold their initial values (nothing writes them) *)
Definition globals_in (at_ : gvar -> Z) (m : bytes) : Prop :=
  forall g k, 0 <= k < 16 -> m (at_ g + k) = nth (Z.to_nat k) (gbytes g) 0.
