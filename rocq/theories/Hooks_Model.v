(** Hooks_Model.v - how initialize() hooks NumPy's ufunc loops, src/pnumpy/_pnumpy.cpp:1287-1545, and how a hooked loop
    falls back to the one it replaced.

    A NumPy ufunc object holds one loop per type signature.  The signatures hooked have equal input dtypes, so a loop is
    found by (ufunc object, input dtype, output dtype).  Everything NumPy and the kernel tables decide is a parameter:
    which name denotes which ufunc object ([obj]: np.bitwise_not IS np.invert), which signatures exist ([has_loop]), which
    (opcode, type) has an output type and is therefore hooked ([wanted]).  Linux dtype numbers. *)
From Coq Require Import String.
From Verif Require Import Base.
Local Open Scope string_scope.
Local Open Scope Z_scope.

(** the four ufunc categories with their own lookup tables (_pnumpy.cpp:243-246) *)
Inductive cat := Binary | Compare | Unary | Trig.

(** gBinaryMapping, gCompareMapping, gUnaryMapping, gTrigMapping: _pnumpy.cpp:89-172; enum values common_inc.h:250-372 *)
Definition gBinaryMapping : list (string * Z) :=
  [("add", 1); ("subtract", 2); ("multiply", 3); ("true_divide", 13); ("floor_divide", 9); ("minimum", 5); ("maximum", 6); ("power", 10);
   ("remainder", 11); ("logical_and", 16); ("logical_or", 18); ("bitwise_and", 21); ("bitwise_or", 23); ("bitwise_xor", 22);
   ("left_shift", 19); ("right_shift", 20)].
Definition gCompareMapping : list (string * Z) :=
  [("equal", 0); ("not_equal", 1); ("greater", 3); ("greater_equal", 5); ("less", 2); ("less_equal", 4)].
Definition gUnaryMapping : list (string * Z) :=
  [("abs", 1); ("signbit", 2); ("fabs", 3); ("invert", 4); ("floor", 5); ("ceil", 6); ("trunc", 7); ("rint", 8); ("negative", 9); ("positive", 10);
   ("sign", 11); ("rint", 12); ("sqrt", 15); ("square", 16); ("reciprocal", 17); ("logical_not", 18); ("isinf", 19); ("isnan", 20); ("isfinite", 21);
   ("bitwise_not", 28)].
Definition gTrigMapping : list (string * Z) :=
  [("sin", 1); ("cos", 2); ("tan", 3); ("arcsin", 4); ("arccos", 5); ("arctan", 6); ("sinh", 7); ("cosh", 8); ("tanh", 9); ("arcsinh", 10);
   ("arccosh", 11); ("arctanh", 12); ("cbrt", 20); ("exp", 16); ("exp2", 17); ("expm1", 18); ("log", 13); ("log2", 14); ("log10", 15); ("log1p", 19)].

(** the dtypes hooked: _pnumpy.cpp:1288 and 1488 (trig) *)
Definition dtypes : list Z := [0; 1; 2; 3; 4; 5; 6; 7; 8; 9; 10; 11; 12].
Definition trig_dtypes : list Z := [11; 12].

(** convert_dtype_to_atop, _pnumpy.cpp:7-27, entries 0..12 with 64-bit long: int64 is both NPY_LONG (7) and NPY_LONGLONG (9) *)
Definition dtype_to_atop (d : Z) : Z :=
  if d <=? 8 then d else if d =? 9 then 7 else if d =? 10 then 8 else d + 1.
(** convert_atop_to_dtype, _pnumpy.cpp:30-42, for the types the tables return *)
Definition atop_to_dtype (a : Z) : Z := if a <=? 8 then a else if a =? 9 then 9 else if a =? 10 then 10 else if a =? 11 then 23 else a - 1.
(** "Check for problem with two int32 depending on OS", _pnumpy.cpp:1356-1362 *)
Definition out_dtype (d outa : Z) : Z :=
  let od := atop_to_dtype outa in
  if (5 <=? d) && (d <=? 10) && ((5 <=? od) && (od <=? 10)) then d else od.

(** a loop: NumPy's original for (object, dtype, out dtype), or the stub g_UFunc...LUT[op][atype] (stubs.h) *)
Inductive loop := Np (u d o : Z) | Stub (c : cat) (op a : Z).
(** NumPy's loop tables, and pOldFunc of the slots g_UFuncLUT / g_CompFuncLUT / g_UnaryFuncLUT / g_TrigFuncLUT; the dictionary
    AddToDict fills is given by its keys *)
Record hooks := mkHooks { loops : Z -> Z -> Z -> loop; olds : cat -> Z -> Z -> option loop; dict : list (string * Z * (cat * Z * Z)) }.

Definition cat_eqb (x y : cat) : bool := match x, y with Binary, Binary | Compare, Compare | Unary, Unary | Trig, Trig => true | _, _ => false end.
(** PyUFunc_ReplaceLoopBySignature, then storing the old loop and AddToDict: _pnumpy.cpp:1365-1380, 1417-1431, 1469-1481, 1519-1531 *)
Definition replace (u d o : Z) (c : cat) (op a : Z) (name : string) (h : hooks) : hooks :=
  let old := loops h u d o in
  mkHooks (fun u' d' o' => if (u' =? u) && (d' =? d) && (o' =? o) then Stub c op a else loops h u' d' o')
          (fun c' op' a' => if cat_eqb c' c && (op' =? op) && (a' =? a) then Some old else olds h c' op' a')
          ((name, d, (c, op, a)) :: dict h).

Section Init.
  Variable obj : string -> Z.
  Variable has_loop : Z -> Z -> Z -> bool.
  (** output type of the kernel table for (category, opcode, input type); None when the loop variable stays -1 and nothing is hooked.
      Comparisons and trig functions are hooked whatever the table says (their variable starts with the input dtype); this is the case
      [wanted] = Some. *)
  Variable wanted : cat -> Z -> Z -> option Z.

  (** one dtype of one ufunc; None: PyErr_Format, initialize returns *)
  Definition hook_dtype (c : cat) (name : string) (op d : Z) (h : hooks) : option hooks :=
    let a := dtype_to_atop d in
    match wanted c op a with
    | None => Some h
    | Some oa => let o := out_dtype d oa in
                 if has_loop (obj name) d o then Some (replace (obj name) d o c op a name h) else None
    end.
  Fixpoint hook_dtypes (c : cat) (name : string) (op : Z) (ds : list Z) (h : hooks) : hooks * bool :=
    match ds with
    | [] => (h, true)
    | d :: ds' => match hook_dtype c name op d h with None => (h, false) | Some h' => hook_dtypes c name op ds' h' end
    end.
  Fixpoint hook_names (c : cat) (m : list (string * Z)) (ds : list Z) (h : hooks) : hooks * bool :=
    match m with
    | [] => (h, true)
    | (name, op) :: m' => let '(h', ok) := hook_dtypes c name op ds h in if ok then hook_names c m' ds h' else (h', false)
    end.
  (** newinit's four loops; the result is also what is left when initialize fails half way *)
  Fixpoint hook_all (l : list (cat * list (string * Z) * list Z)) (h : hooks) : hooks :=
    match l with
    | [] => h
    | (c, m, ds) :: l' => let '(h', ok) := hook_names c m ds h in if ok then hook_all l' h' else h'
    end.
  Definition fresh : hooks := mkHooks Np (fun _ _ _ => None) [].
  Definition initialize : hooks :=
    hook_all [(Binary, gBinaryMapping, dtypes); (Compare, gCompareMapping, dtypes); (Unary, gUnaryMapping, dtypes); (Trig, gTrigMapping, trig_dtypes)] fresh.
End Init.

(** a call of a loop when no kernel is used (atop disabled, no kernel, or refused by a guard): the stub calls pOldFunc, which may be
    another stub (_pnumpy.cpp:712, 829, 898, 962); fuel bounds the depth of that recursion, None: fuel used up or a NULL pointer called *)
Fixpoint fall_back (fuel : nat) (h : hooks) (l : loop) : option (Z * Z * Z) :=
  match fuel with
  | O => None
  | S k => match l with
           | Np u d o => Some (u, d, o)
           | Stub c op a => match olds h c op a with Some l' => fall_back k h l' | None => None end
           end
  end.

(** GetFromDict, _pnumpy.cpp:1252-1268 *)
Definition get_from_dict (h : hooks) (name : string) (d : Z) : option (cat * Z * Z) :=
  match find (fun e => String.eqb (fst (fst e)) name && (snd (fst e) =? d)) (dict h) with Some e => Some (snd e) | None => None end.
