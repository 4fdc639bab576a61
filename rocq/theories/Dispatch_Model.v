(** Dispatch_Model.v - which loop initialize() installs for which ufunc and dtype: the four tables GetSimpleMathOpFast
    (src/atop/ops_binary.cpp:862-1058), GetComparisonOpFast (ops_compare.cpp:1267-1446), GetUnaryOpFast then GetUnaryOpSlow
    (ops_unary.cpp:1628-1780, 1251-1624) and GetTrigOpFast (ops_trig.cpp:579-780), each as the pair of what it stores through
    wantedOutType (None: nothing stored) and the function it returns (None: NULL); GetReduceMathOpFast (ops_binary.cpp:1061-1130);
    and newinit with its Initialized flag (src/pnumpy/_pnumpy.cpp:1287-1545, 1667-1675).
    The functions returned are the kernels of Kernel_Model, Arith_Model, UfuncCmp_Model, UfuncUn_Model, Sqrt_Model and Trig_Model.
    Not modelled: types no loop is hooked for (long double, complex, half); gcc, so the RT_COMPILER_MSVC cases are absent. *)
From Coq Require Import String.
From Verif Require Import Base Kernel_Model Float_Model Compare_Model Unary_Model Round_Model Arith_Model Trig_Model Hooks_Model
  Threads_Model Jobs_Model Sort_Model Ufunc_Model UfuncCmp_Model UfuncUn_Model Sqrt_Model RedBytes_Model.
Local Open Scope Z_scope.

(** the ATOP types, common_inc.h:236-249 *)
Definition ity_of (a : Z) : option ity :=
  if a =? 0 then Some BOOL else if a =? 1 then Some INT8 else if a =? 2 then Some UINT8 else if a =? 3 then Some INT16 else
  if a =? 4 then Some UINT16 else if a =? 5 then Some INT32 else if a =? 6 then Some UINT32 else if a =? 7 then Some INT64 else
  if a =? 8 then Some UINT64 else None.
Definition fmt_of (a : Z) : option fmt := if a =? 12 then Some FLT else if a =? 13 then Some DBL else None.
Definition cty_of (a : Z) : option cty :=
  match ity_of a with Some t => Some (I t) | None => if a =? 12 then Some FLOAT else if a =? 13 then Some DOUBLE else None end.

(** what a slot's pBinaryFunc / pUnaryFunc points to *)
Inductive kern := KInt (e : entry) | KFloat (e : fentry) | KCmp (k : ckernel) | KUn (k : ukernel) | KTrig (lane : Z -> Z).

(** GetSimpleMathOpFast: opcodes common_inc.h:299-340 *)
Definition binary_slot (op a : Z) : option Z * option kern :=
  let int f := match ity_of a with Some t => option_map KInt (table f t) | None => None end in
  let flt u := match fmt_of a with Some f => Some (KFloat (ftable u f)) | None => None end in
  let both f u := match ity_of a with Some _ => int f | None => flt u end in
  let divided u := if a >? 8 then (Some (if a =? 12 then 12 else if a =? 14 then 14 else 13), flt u) else (None, None) in
  let bits f := if a <=? 8 then (Some a, int f) else (None, None) in
  let booleans f := if a =? 0 then (Some 0, int f) else (None, None) in
  if op =? 1 then (Some a, both ADD FADD)                                     (* ADD, 867-880 *)
  else if op =? 3 then (Some a, both MUL FMUL)                                (* MUL, 882-902 *)
  else if op =? 2 then if a =? 0 then (None, None) else (Some a, both SUB FSUB)  (* SUB, 904-918 *)
  else if op =? 13 then divided FDIV                                          (* DIV, 920-932 *)
  else if op =? 9 then divided FFLOORDIV                                      (* FLOORDIV, 934-946 *)
  else if op =? 5 then (Some a, both MINIMUM FMIN)                            (* MIN, 948-957 *)
  else if op =? 6 then (Some a, both MAXIMUM FMAX)                            (* MAX, 959-968 *)
  else if op =? 16 then booleans LOGICAL_AND                                  (* 970-975 *)
  else if op =? 21 then bits BITWISE_AND                                      (* 977-993 *)
  else if op =? 18 then booleans LOGICAL_OR                                   (* 995-1000 *)
  else if op =? 23 then bits BITWISE_OR                                       (* 1002-1018 *)
  else if op =? 22 then bits BITWISE_XOR                                      (* 1020-1036 *)
  else if (op =? 19) || (op =? 20) then if (a >? 0) && (a <=? 8) then (Some a, None) else (None, None)  (* shifts, 1038-1052 *)
  else (None, None).                                                          (* POWER, REMAINDER, ... *)

(** GetComparisonOpFast with two equal types; COMP_OPERATION, common_inc.h:251-260 *)
Definition cop_of (op : Z) : option cop :=
  if op =? 0 then Some CMP_EQ else if op =? 1 then Some CMP_NE else if op =? 2 then Some CMP_LT else
  if op =? 3 then Some CMP_GT else if op =? 4 then Some CMP_LTE else if op =? 5 then Some CMP_GTE else None.
Definition compare_slot (op a : Z) : option Z * option kern :=
  (Some 0, match cop_of op, cty_of a with Some c, Some t => Some (KCmp (kGetComparisonOpFast c t)) | _, _ => None end).

(** GetUnaryOpFast, and GetUnaryOpSlow when it returns NULL (_pnumpy.cpp:1459-1463); UNARY_OPERATION, common_inc.h:262-297.
    The type is what either of them has stored last. *)
Definition unary_slot (op a : Z) : option Z * option kern :=
  let un u := match cty_of a with Some t => option_map KUn (kGetUnaryOp u t) | None => None end in
  let rounding r := match cty_of a with Some t => option_map KUn (kGetRoundOp r t) | None => None end in
  let floats k := if a >=? 12 then (Some a, k) else (None, None) in
  let known := match cty_of a with Some _ => true | None => false end in
  if op =? 1 then (Some a, un ABS)                                            (* ABS, 1637, 1266 *)
  else if op =? 20 then (Some 0, un ISNAN)                                    (* 1647, 1405 *)
  else if op =? 24 then (Some 0, un ISNOTNAN)                                 (* 1663, 1463 *)
  else if op =? 21 then (Some 0, un ISFINITE)                                 (* 1671, 1347 *)
  else if op =? 19 then (Some 0, un ISINF)                                    (* 1679, 1492 *)
  else if op =? 25 then (Some 0, un ISNOTFINITE)                              (* 1687, 1376 *)
  else if op =? 9 then if a >? 0 then (Some a, un NEGATIVE) else (None, None)  (* NEGATIVE, 1695, 1294 *)
  else if (op =? 4) || (op =? 28) then if a <=? 8 then (Some a, un INVERT) else (None, None)  (* INVERT, BITWISE_NOT, 1709, 1328 *)
  else if op =? 5 then floats (rounding FLOOR)                                (* 1716, 1564 *)
  else if op =? 6 then floats (rounding CEIL)                                 (* 1726, 1571 *)
  else if op =? 7 then floats (rounding TRUNC)                                (* 1736, 1578 *)
  else if op =? 8 then floats (rounding ROUND)                                (* ROUND, 1746, 1585 *)
  else if op =? 15 then                                                       (* SQRT, 1757, 1592 *)
    if a >=? 12 then (Some (if a =? 12 then 12 else 13), match fmt_of a with Some f => option_map KUn (kGetSqrtOp f) | None => None end) else (None, None)
  else if op =? 18 then (Some 0, un LOGICAL_NOT)                              (* LOGICAL_NOT, slow only, 1308 *)
  else if op =? 11 then (match un SIGN with Some _ => Some a | None => None end, un SIGN)        (* SIGN, slow only, 1280 *)
  else if op =? 2 then (match un SIGNBIT with Some _ => Some 0 | None => None end, un SIGNBIT)   (* SIGNBIT, slow only, 1613 *)
  else (None, None).                                                          (* FABS, POSITIVE, RINT, SQUARE, RECIPROCAL *)

(** GetTrigOpFast with gcc; TRIG_OPERATION, common_inc.h:342-366: every opcode 1..20 has a case that stores the type *)
Definition trig_slot (op a : Z) : option Z * option kern :=
  let k u := match fmt_of a with Some f => option_map KTrig (trig_lane u f) | None => None end in
  (Some a, if op =? 1 then k SIN else if op =? 2 then k COS else if op =? 16 then k EXP else if op =? 13 then k LOG else None).

Definition slot (c : cat) (op a : Z) : option Z * option kern :=
  match c with Binary => binary_slot op a | Compare => compare_slot op a | Unary => unary_slot op a | Trig => trig_slot op a end.
(** the signature the loops of newinit ask for, and the kernel they store in the slot (l.1353-1376, 1411-1426, 1457-1478, 1520-1541) *)
Definition wanted (c : cat) (op a : Z) : option Z := fst (slot c op a).
Definition kernel_of (c : cat) (op a : Z) : option kern := snd (slot c op a).

(** pReduceFunc of the binary slots, l.1354, 1372: GetReduceMathOpFast, ops_binary.cpp:1061-1130; for float32 sum and product, the
    function of Reduce_Model with accumulators in double (RUp) *)
Inductive rkern := RInt (o ov : Z -> Z -> Z) | RDouble (o ov : Z -> Z -> Z) | RUp (u : Arith_Model.fop).
Definition reduce_slot (op a : Z) : option rkern :=
  let int f := match ity_of a with Some t => option_map (fun p => RInt (fst p) (snd p)) (rtable f t) | None => None end in
  let flt u := if a =? 12 then Some (RUp u) else if a =? 13 then option_map (fun p => RDouble (fst p) (snd p)) (dtable u) else None in
  if op =? 1 then match ity_of a with Some _ => int ADD | None => flt FADD end
  else if op =? 3 then match ity_of a with Some _ => int MUL | None => flt FMUL end
  else if op =? 5 then int MINIMUM
  else if op =? 6 then int MAXIMUM
  else None.

(** newinit: the flag g_Settings.Initialized is set before anything is hooked, l.1297-1299; then the hooks; the ImportError without avx2,
    l.1671-1674.  NumPy's loop table is part of the state; [has_loop] says which loops it has. *)
Section Newinit.
  Variable obj : string -> Z.
  Variable has_loop : Z -> Z -> Z -> bool.
  Record process := mkProc { initialized : bool; hooked : hooks }.
  Inductive answer := ReturnsNone | TypeErrorRaised | ImportErrorRaised.
  (** the four loops with the outcome: false when PyErr_Format returns out of newinit *)
  Fixpoint hook_all_ok (l : list (cat * list (string * Z) * list Z)) (h : hooks) : hooks * bool :=
    match l with
    | [] => (h, true)
    | (c, m, ds) :: l' => let '(h', ok) := hook_names obj has_loop wanted c m ds h in if ok then hook_all_ok l' h' else (h', false)
    end.
  Definition all_ufuncs : list (cat * list (string * Z) * list Z) :=
    [(Binary, gBinaryMapping, dtypes); (Compare, gCompareMapping, dtypes); (Unary, gUnaryMapping, dtypes); (Trig, gTrigMapping, trig_dtypes)].
  Definition newinit (avx2 : bool) (p : process) : process * answer :=
    if negb (initialized p) && avx2 then
      let '(h, ok) := hook_all_ok all_ufuncs (hooked p) in (mkProc true h, if ok then ReturnsNone else TypeErrorRaised)
    else if negb avx2 then (p, ImportErrorRaised)
    else (p, ReturnsNone).
  Definition started : process := mkProc false fresh.
End Newinit.
