(** UfuncCmp_Model.v - hooked comparison ufuncs on worker threads, at the level of single byte accesses; as
    Ufunc_Model.v, with the loops of src/atop/ops_compare.cpp (405-1254) and the call AtopCompareMathFunction,
    src/pnumpy/_pnumpy.cpp:805-868 (which has no overlap guard). *)
From Verif Require Import Base Threads_Model Jobs_Model Sort_Model Kernel_Model Float_Model Compare_Model Ufunc_Model.

Section Loops.
  Variables (sz B : Z) (cmp : Z -> Z -> bool).
  (** Compare_Model.rdr: one register of an operand *)
  Definition prdr (o : opd) (k : Z) : bprog reg :=
    match o with
    | Ptr p _ => mapp (zrange 0 (B / sz)) (fun l => pld sz (p + B * k + l * sz))
    | Val v => Ret (map (fun _ => v) (zrange 0 (B / sz)))
    end.
  Definition pregs (nreg : Z) (o : opd) (k : Z) : bprog (list reg) := mapp (zrange 0 nreg) (fun r => prdr o (nreg * k + r)).
  (** Compare_Model.cmp_loop *)
  Definition pcmp_loop (x y : opd) (out so n : Z) : bprog unit :=
    forp (zrange 0 n) (fun i => let! a := prd sz x i in let! b := prd sz y i in pst 1 (out + i * so) (b2z (cmp a b))).
  Variables (nreg W : Z) (comp : list reg -> list reg -> list Z).
  (** Compare_Model.round_loop, fast, generic, CompareShape *)
  Definition pround_loop (x y : opd) (out q : Z) : bprog unit :=
    forp (zrange 0 q) (fun k => let! a := pregs nreg x k in let! b := pregs nreg y k in pstorev 1 (out + W * k) (comp a b)).
  Definition pfast (vx vy : opd) (tx ty : bprog opd) (out n q : Z) : bprog unit :=
    pround_loop vx vy out q ;;
    let! x := tx in let! y := ty in pcmp_loop x y (out + W * q) 1 (n - q * W).
  Definition pgeneric (a1 a2 out n s1 s2 so : Z) : bprog unit := pcmp_loop (Ptr a1 s1) (Ptr a2 s2) out so n.
  Definition pCompareShape (q : Z) (once ret : bool) (a1 a2 out n s1 s2 so : Z) : bprog unit :=
    let scal a := if once then (let! v := pld sz a in Ret (Val v)) else Ret (Ptr a 0) in
    let rest a := Ret (Ptr (a + B * nreg * q) sz) in
    if so =? 1 then
      if s1 =? 0 then
        if s2 =? sz then let! v := pld sz a1 in pfast (Val v) (Ptr a2 sz) (scal a1) (rest a2) out n q
        else pgeneric a1 a2 out n s1 s2 so
      else if s2 =? 0 then
        if s1 =? sz then let! v := pld sz a2 in pfast (Ptr a1 sz) (Val v) (rest a1) (scal a2) out n q
        else pgeneric a1 a2 out n s1 s2 so
      else if (s1 =? sz) && (s2 =? sz) then
        pfast (Ptr a1 sz) (Ptr a2 sz) (rest a1) (rest a2) out n q ;;
        (if ret then Ret tt else pgeneric a1 a2 out (n - q * W) s1 s2 so)
      else pgeneric a1 a2 out n s1 s2 so
    else pgeneric a1 a2 out n s1 s2 so.
  (** CompareAny, 405-448 *)
  Definition pCompareAny (a1 a2 out n s1 s2 so : Z) : bprog unit :=
    if so =? 1 then
      if s1 =? 0 then
        if s2 =? sz then let! v := pld sz a1 in pcmp_loop (Val v) (Ptr a2 sz) out 1 n else pgeneric a1 a2 out n s1 s2 so
      else if s2 =? 0 then
        if s1 =? sz then let! v := pld sz a2 in pcmp_loop (Ptr a1 sz) (Val v) out 1 n else pgeneric a1 a2 out n s1 s2 so
      else if (s2 =? sz) && (s1 =? sz) then pcmp_loop (Ptr a1 sz) (Ptr a2 sz) out 1 n
      else pgeneric a1 a2 out n s1 s2 so
    else pgeneric a1 a2 out n s1 s2 so.
End Loops.

(** ---------- the loop a call uses ---------- *)
Inductive ckernel :=
| KShape (sz B : Z) (cmp : Z -> Z -> bool) (nreg W : Z) (comp : list reg -> list reg -> list Z) (q : Z -> Z) (once ret : bool)
| KAny (sz : Z) (cmp : Z -> Z -> bool)
| KCNumpy (sz : Z) (cmp : Z -> Z -> bool).      (* NumPy's own loop: element by element with NumPy's comparison *)
Definition pckernel (k : ckernel) (a1 a2 out n s1 s2 so : Z) : bprog unit :=
  match k with
  | KShape sz B cmp nreg W comp q once ret => pCompareShape sz B cmp nreg W comp (q n) once ret a1 a2 out n s1 s2 so
  | KAny sz cmp => pCompareAny sz cmp a1 a2 out n s1 s2 so
  | KCNumpy sz cmp => pgeneric sz cmp a1 a2 out n s1 s2 so
  end.

(** the functions of ops_compare.cpp; Compare_Model cites the lines *)
Definition kCompareAny := KAny.
Definition kCompareFloat opc cmp := KShape 4 32 cmp 4 32 (four (float_round opc)) (fun n => n / 32) true true.
Definition kCompareDouble opc cmp := KShape 8 16 cmp 4 8 (four (double_round opc)) (fun n => n / 8) true true.
Definition kCompareInt64 comp cmp := KShape 8 32 cmp 4 16 (four comp) rounds64 false true.
Definition kCompareInt32S comp cmp := KShape 4 32 cmp 4 32 (four comp) (fun n => n / 32) false true.
Definition kCompareInt32 (comp : reg -> reg -> Z) cmp := KShape 4 32 cmp 1 8 (one (fun x y => word_bytes 8 (comp x y))) (fun n => n / 8) false true.
Definition kCompareInt16 (comp : reg -> reg -> reg -> list Z) cmp := KShape 2 32 cmp 1 16 (one (fun x y => comp x y mask16)) (fun n => n / 16) false true.
Definition kCompareInt8 (comp : reg -> reg -> reg -> list Z) cmp := KShape 1 32 cmp 1 32 (one (fun x y => comp x y g_ones)) (fun n => n / 32) false false.

(** GetComparisonOpFast, ops_compare.cpp:1267-1446 *)
Definition kGetComparisonOpFast (c : cop) (t : cty) : ckernel :=
  match t with
  | FLOAT => kCompareFloat (fops FLT c) (fops FLT c)
  | DOUBLE => kCompareDouble (fops DBL c) (fops DBL c)
  | I INT32 => match c with
      | CMP_EQ => kCompareInt32S COMP32i_EQS (s_eq 32)
      | CMP_NE => kCompareInt32 COMP32i_NE (s_ne 32)
      | CMP_GT => kCompareInt32 COMP32i_GT (s_gt 32)
      | CMP_GTE => kCompareInt32 COMP32i_GE (s_ge 32)
      | CMP_LT => kCompareInt32 COMP32i_LT (s_lt 32)
      | CMP_LTE => kCompareInt32 COMP32i_LE (s_le 32) end
  | I UINT32 => match c with
      | CMP_EQ => kCompareInt32 COMP32i_EQ (s_eq 32)
      | CMP_NE => kCompareInt32 COMP32i_NE (s_ne 32)
      | CMP_GT => kCompareAny 4 u_gt | CMP_GTE => kCompareAny 4 u_ge
      | CMP_LT => kCompareAny 4 u_lt | CMP_LTE => kCompareAny 4 u_le end
  | I INT64 => match c with
      | CMP_EQ => kCompareInt64 COMP64i_EQ (s_eq 64)
      | CMP_NE => kCompareInt64 COMP64i_NE (s_ne 64)
      | CMP_GT => kCompareInt64 COMP64i_GT (s_gt 64)
      | CMP_GTE => kCompareInt64 COMP64i_GE (s_ge 64)
      | CMP_LT => kCompareInt64 COMP64i_LT (s_lt 64)
      | CMP_LTE => kCompareInt64 COMP64i_LE (s_le 64) end
  | I UINT64 => match c with
      | CMP_EQ => kCompareInt64 COMP64i_EQ (s_eq 64)
      | CMP_NE => kCompareInt64 COMP64i_NE (s_ne 64)
      | CMP_GT => kCompareAny 8 u_gt | CMP_GTE => kCompareAny 8 u_ge
      | CMP_LT => kCompareAny 8 u_lt | CMP_LTE => kCompareAny 8 u_le end
  | I BOOL => match c with
      | CMP_EQ => kCompareInt8 COMPBool_EQ b_eq
      | CMP_NE => kCompareInt8 COMPBool_NE b_ne
      | CMP_GT => kCompareInt8 COMPBool_GT b_gt
      | CMP_GTE => kCompareInt8 COMPBool_GE b_ge
      | CMP_LT => kCompareInt8 COMPBool_LT b_lt
      | CMP_LTE => kCompareInt8 COMPBool_LE b_le end
  | I INT8 => match c with
      | CMP_EQ => kCompareInt8 COMP8i_EQ (s_eq 8)
      | CMP_NE => kCompareInt8 COMP8i_NE (s_ne 8)
      | CMP_GT => kCompareInt8 COMP8i_GT (s_gt 8)
      | CMP_GTE => kCompareInt8 COMP8i_GE (s_ge 8)
      | CMP_LT => kCompareInt8 COMP8i_LT (s_lt 8)
      | CMP_LTE => kCompareInt8 COMP8i_LE (s_le 8) end
  | I UINT8 => match c with
      | CMP_EQ => kCompareInt8 COMP8i_EQ (s_eq 8)
      | CMP_NE => kCompareInt8 COMP8i_NE (s_ne 8)
      | CMP_GT => kCompareAny 1 u_gt | CMP_GTE => kCompareAny 1 u_ge
      | CMP_LT => kCompareAny 1 u_lt | CMP_LTE => kCompareAny 1 u_le end
  | I INT16 => match c with
      | CMP_EQ => kCompareInt16 COMP16i_EQ (s_eq 16)
      | CMP_NE => kCompareInt16 COMP16i_NE (s_ne 16)
      | CMP_GT => kCompareInt16 COMP16i_GT (s_gt 16)
      | CMP_GTE => kCompareInt16 COMP16i_GE (s_ge 16)
      | CMP_LT => kCompareInt16 COMP16i_LT (s_lt 16)
      | CMP_LTE => kCompareInt16 COMP16i_LE (s_le 16) end
  | I UINT16 => match c with
      | CMP_EQ => kCompareInt16 COMP16i_EQ (s_eq 16)
      | CMP_NE => kCompareInt16 COMP16i_NE (s_ne 16)
      | CMP_GT => kCompareAny 2 u_gt | CMP_GTE => kCompareAny 2 u_ge
      | CMP_LT => kCompareAny 2 u_lt | CMP_LTE => kCompareAny 2 u_le end
  end.


(** _pnumpy.cpp:812-824, 837-851: no overlap guard; every integer, boolean and float type has a replacement *)
Definition cchosen (enabled : bool) (c : cop) (t : cty) (sz : Z) (ncmp : Z -> Z -> bool) : ckernel :=
  if enabled then kGetComparisonOpFast c t else KCNumpy sz ncmp.
(** one turn of the callbacks' loop, l.459-466, 493-500 *)
Definition con_block (k : ckernel) (a1 a2 out s1 s2 so : Z) (workBlock lenX : Z) : bprog unit :=
  let adj s := WORK_ITEM_CHUNK * workBlock * s in
  pckernel k (a1 + adj s1) (a2 + adj s2) (out + adj so) lenX s1 s2 so.
