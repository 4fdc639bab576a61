(** UfuncUn_Model.v - hooked unary ufuncs on worker threads, at the level of single byte accesses; as Ufunc_Model.v, with
    the loops of src/atop/ops_unary.cpp (326-1013) and ops_trig.cpp (230-285), the callbacks UnaryThreadCallbackStrided and
    UnaryThreadCallbackNumpy, src/pnumpy/_pnumpy.cpp:520-585, and the calls AtopUnaryMathFunction 874-932 and
    AtopTrigMathFunction 938-996. *)
From Verif Require Import Base Threads_Model Jobs_Model Sort_Model Kernel_Model Float_Model Compare_Model Unary_Model Round_Model Trig_Model
  Ufunc_Model UfuncCmp_Model.

(** ---------- the loops, access by access ---------- *)
(** while (pOut != pLastOut) { pOut[0] = MATH_OP(pIn[0]); ... }, [cnt] rounds: Unary_Model.slow, the end of UnaryOpFast *)
Definition pslow (sz szo : Z) (op : Z -> Z) (a out cnt s so : Z) : bprog unit :=
  forp (zrange 0 cnt) (fun i => let! x := pld sz (a + i * s) in pst szo (out + i * so) (op x)).
(** UnaryOpFast, ops_unary.cpp:328-378, ops_trig.cpp:230-285; Kernel_Model.UnaryOpFast *)
Definition pUnaryOpFast (sz : Z) (op opv : Z -> Z) (a out n s so : Z) : bprog unit :=
  let chunkSize := perReg sz in
  if (sz =? so) && (sz =? s) && (chunkSize <=? n) then
    let q := n / chunkSize in
    forp (zrange 0 q) (fun k => let! x := ploadv sz (a + 32 * k) in pstorev sz (out + 32 * k) (map opv x)) ;;
    pslow sz sz op (a + 32 * q) (out + 32 * q) ((out + so * n - (out + 32 * q)) / so) s so
  else pslow sz sz op a out (while_rounds so n) s so.
(** UnaryOpSlow_FillTrue / FillFalse, 987-1013; Unary_Model.fill *)
Definition pfill (v out n so : Z) : bprog unit :=
  if so =? 1 then forp (zrange 0 n) (fun i => pst 1 (out + i) v)
  else forp (zrange 0 (while_rounds so n)) (fun i => pst 1 (out + i * so) v).
(** The functions that write bools in rounds of [W] bytes (UnaryNanFast* 436-545, UnaryNotNanFast* 552-626,
    UnaryFiniteFast* 635-720, UnaryInfFast* 727-836, UnaryNotFiniteFast* 842-928): used if the output is contiguous, the
    input too and there are [minlen] elements; [tailp] on the elements behind the rounds, [op] in the slow loop. *)
Definition prounds (sz B nreg W : Z) (comp : list reg -> list Z) (minlen : Z) (tailp op : Z -> bool) (a out n s so : Z) : bprog unit :=
  if (1 =? so) && (sz =? s) && (minlen <=? n) then
    let q := n / W in
    forp (zrange 0 q) (fun k => let! x := pregs sz B nreg (Ptr a sz) k in pstorev 1 (out + W * k) (comp x)) ;;
    forp (zrange 0 (n - W * q)) (fun i => let! x := pld sz (a + B * nreg * q + i * sz) in pst 1 (out + W * q + i) (b2z (tailp x)))
  else pslow sz 1 (fun x => b2z (op x)) a out (while_rounds so n) s so.

(** ---------- the loop a call uses ---------- *)
Inductive ukernel :=
| UFast (sz : Z) (op opv : Z -> Z)
| USlow (sz szo : Z) (op : Z -> Z)
| UFill (v : Z)
| URounds (sz B nreg W : Z) (comp : list reg -> list Z) (minlen : Z) (tailp op : Z -> bool)
| UNumpy (sz szo : Z) (op : Z -> Z).      (* NumPy's own loop: element by element *)
Definition pukernel (k : ukernel) (a out n s so : Z) : bprog unit :=
  match k with
  | UFast sz op opv => pUnaryOpFast sz op opv a out n s so
  | USlow sz szo op => pslow sz szo op a out (while_rounds so n) s so
  | UFill v => pfill v out n so
  | URounds sz B nreg W comp minlen tailp op => prounds sz B nreg W comp minlen tailp op a out n s so
  | UNumpy sz szo op => pslow sz szo op a out n s so
  end.
Definition kslow_bool (sz : Z) (p : Z -> bool) : ukernel := USlow sz 1 (fun x => b2z (p x)).
Definition klut (sz L : Z) (bytes_of : reg -> list Z) (op : Z -> bool) : ukernel := URounds sz 32 1 L (uone bytes_of) L op op.

(** GetUnaryOpFast 1628-1780, else GetUnaryOpSlow 1251-1624; as Unary_Model.GetUnaryOp *)
Definition kGetUnaryOp (u : uop) (t : cty) : option ukernel :=
  match u, t with
  | ABS, FLOAT => Some (UFast 4 (f_abs FLT) (vf_abs FLT))
  | ABS, DOUBLE => Some (UFast 8 (f_abs DBL) (vf_abs DBL))
  | ABS, I ((INT32 | INT16 | INT8) as t) => Some (UFast (isize t) (i_abs (width t)) (v_abs (width t)))
  | ABS, I INT64 => Some (USlow 8 8 (i_abs 64))
  | NEGATIVE, FLOAT => Some (UFast 4 (f_negate FLT) (vf_neg FLT))
  | NEGATIVE, DOUBLE => Some (UFast 8 (f_negate DBL) (vf_neg DBL))
  | NEGATIVE, I ((INT64 | INT32 | INT16 | INT8) as t) => Some (UFast (isize t) (i_neg (width t)) (v_neg (width t)))
  | SIGN, FLOAT => Some (USlow 4 4 (f_sign FLT))
  | SIGN, DOUBLE => Some (USlow 8 8 (f_sign DBL))
  | SIGN, I ((INT64 | INT32 | INT16 | INT8) as t) => Some (USlow (isize t) (isize t) (i_sign (width t)))
  | INVERT, I BOOL => Some (USlow 1 1 b_invert)
  | INVERT, I t => Some (USlow (isize t) (isize t) (i_invert (width t)))
  | LOGICAL_NOT, I t => Some (kslow_bool (isize t) i_not)
  | LOGICAL_NOT, FLOAT => Some (kslow_bool 4 (f_not FLT))
  | LOGICAL_NOT, DOUBLE => Some (kslow_bool 8 (f_not DBL))
  | SIGNBIT, FLOAT => Some (kslow_bool 4 (c_signbit FLT))
  | SIGNBIT, DOUBLE => Some (kslow_bool 8 (c_signbit DBL))
  | ISNAN, FLOAT => Some (URounds 4 32 4 32 (ufour (fun x1 x2 x3 x4 => float_round (f_ne FLT) x1 x1 x2 x2 x3 x3 x4 x4)) 0 (fun x => f_ne FLT x x) (c_isnan FLT))
  | ISNAN, DOUBLE => Some (URounds 8 16 4 8 (ufour (fun x1 x2 x3 x4 => double_round (f_ne DBL) x1 x1 x2 x2 x3 x3 x4 x4)) 4 (fun x => f_ne DBL x x) (c_isnan DBL))
  | ISINF, FLOAT => Some (URounds 4 32 4 32 (ufour inf_round) 0 (c_isinf FLT) (c_isinf FLT))
  | ISINF, DOUBLE => Some (klut 8 4 (fun x => lut4 (movemask_pd (inf_mask 8 DBL x))) (c_isinf DBL))
  | ISFINITE, FLOAT => Some (klut 4 8 (fun x => lut8 (movemask_ps (cmp_lanes 4 (f_neo FLT) (set1 (exp_mask FLT) x) (and_mask (exp_mask FLT) x)))) (c_isfinite FLT))
  | ISFINITE, DOUBLE => Some (klut 8 4 (fun x => lut4 (movemask_pd (cmp_lanes 8 (f_neo DBL) (set1 (exp_mask DBL) x) (and_mask (exp_mask DBL) x)))) (c_isfinite DBL))
  | ISNOTNAN, FLOAT => Some (klut 4 8 (fun x => lut8 (movemask_ps (cmp_lanes 4 (f_eq FLT) x x))) (fun x => negb (c_isnan FLT x)))
  | ISNOTNAN, DOUBLE => Some (klut 8 4 (fun x => lut4 (movemask_pd (cmp_lanes 8 (f_eq DBL) x x))) (fun x => negb (c_isnan DBL x)))
  | ISNOTFINITE, FLOAT => Some (klut 4 8 (fun x => lut8 (movemask_ps (cmp_lanes 4 (f_eq FLT) (set1 (exp_mask FLT) x) (and_mask (exp_mask FLT) x)))) (fun x => negb (c_isfinite FLT x)))
  | ISNOTFINITE, DOUBLE => Some (klut 8 4 (fun x => lut4 (movemask_pd (cmp_lanes 8 (f_eq DBL) (set1 (exp_mask DBL) x) (and_mask (exp_mask DBL) x)))) (fun x => negb (c_isfinite DBL x)))
  | (ISNAN | ISINF), I _ => Some (UFill 0)
  | (ISFINITE | ISNOTNAN | ISNOTFINITE), I _ => Some (UFill 1)
  | _, _ => None
  end.
(** floor, ceil, trunc, rint: as Round_Model.GetRoundOp *)
Definition kGetRoundOp (r : rop) (t : cty) : option ukernel :=
  match r, t with
  | _, I _ => None
  | ROUND, FLOAT => None
  | ROUND, DOUBLE => Some (USlow 8 8 (f_round HalfAway DBL))
  | _, FLOAT => Some (UFast 4 (f_round (rmode_of r) FLT) (f_round (rmode_of r) FLT))
  | _, DOUBLE => Some (UFast 8 (f_round (rmode_of r) DBL) (f_round (rmode_of r) DBL))
  end.
(** sin, cos, exp, log: as Trig_Model.TrigCall *)
Definition kGetTrigOp (u : top) (f : fmt) (libm : Z -> Z) : option ukernel :=
  match trig_lane u f with Some lane => Some (UFast (fwidth f / 8) libm lane) | None => None end.

(** _pnumpy.cpp:882-897, 911-922 and 946-961, 975-986: the replacement if there is one, pnumpy is enabled and the output
    stride is not 0; else NumPy's loop *)
Definition uchosen (enabled : bool) (found : option ukernel) (so sz szo : Z) (nop : Z -> Z) : ukernel :=
  match found with
  | Some k => if enabled && negb (so =? 0) then k else UNumpy sz szo nop
  | None => UNumpy sz szo nop
  end.
(** one turn of the while loop of the callbacks, l.533-541, 571-575 *)
Definition uon_block (k : ukernel) (a out s so : Z) (workBlock lenX : Z) : bprog unit :=
  let adj s := WORK_ITEM_CHUNK * workBlock * s in
  pukernel k (a + adj s) (out + adj so) lenX s so.
