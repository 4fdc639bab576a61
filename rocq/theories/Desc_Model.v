(** Desc_Model.v - the functions of NumPy's dtypes (PyArray_ArrFuncs: sort, argsort, argmax, argmin, fill) that initialize() replaces, and what a call of one
    of them runs.  src/pnumpy/_pnumpy.cpp:1536-1605 and src/pnumpy/stubs.h:490-740. *)
From Verif Require Import Base Kernel_Model Hooks_Model Dispatch_Model.
Local Open Scope Z_scope.

(** the kinds of the three sorts, 0 quicksort, 1 heapsort, 2 stable (NPY_SORTKIND), _pnumpy.cpp:1552-1557 *)
Inductive slot := SortSlot (k : Z) | ArgSortSlot (k : Z) | ArgMaxSlot | ArgMinSlot | FillSlot.
Definition slot_eqb (s s' : slot) : bool :=
  match s, s' with
  | SortSlot k, SortSlot k' | ArgSortSlot k, ArgSortSlot k' => k =? k'
  | ArgMaxSlot, ArgMaxSlot | ArgMinSlot, ArgMinSlot | FillSlot, FillSlot => true
  | _, _ => false
  end.
(** a function pointer: NumPy's own for a dtype number, or the entry [slot][atype] of pnumpy's tables g_UFuncSortLUT, g_UFuncArgSortLUT,
    g_UFuncArgMinMaxLUT ([0] is argmax, [1] argmin) and g_UFuncArangeLUT.  DEF_SORT_USTUB and the others (stubs.h:497-660): that entry calls the
    Atop function of its category with its own kind and type *)
Inductive dfn := Own (d : Z) (s : slot) | DStub (s : slot) (a : Z).
Definition dfn_eqb (f g : dfn) : bool :=
  match f, g with Own d s, Own d' s' => (d =? d') && slot_eqb s s' | DStub s a, DStub s' a' => slot_eqb s s' && (a =? a') | _, _ => false end.
(** [descr d s]: the pointer in dtype number d's ArrFuncs, None for NULL (simplification: every dtype number has its own ArrFuncs, as in NumPy);
    [old s a]: pOldFunc of g_SortFuncLUT, g_ArgSortFuncLUT, g_ArgMinMaxFuncLUT and g_ArangeFuncLUT, static storage, so NULL at first *)
Record dstate := mkD { descr : Z -> slot -> option dfn; old : slot -> Z -> option dfn }.
Definition set_descr (d : Z) (s : slot) (f : dfn) (st : dstate) : dstate :=
  mkD (fun d' s' => if (d' =? d) && slot_eqb s' s then Some f else descr st d' s') (old st).
Definition set_old (s : slot) (a : Z) (f : option dfn) (st : dstate) : dstate :=
  mkD (descr st) (fun s' a' => if slot_eqb s' s && (a' =? a) then f else old st s' a').

(** l.1561-1570, 1572-1581 (sort, argsort: hooked unless already the stub), 1589-1604 (argmax, argmin, fill: not when NULL either) *)
Definition is_stub (f : option dfn) (s : slot) (a : Z) : bool := match f with Some f => dfn_eqb f (DStub s a) | None => false end.
Definition is_sort (s : slot) : bool := match s with SortSlot _ | ArgSortSlot _ => true | _ => false end.
Definition hook_slot (d : Z) (s : slot) (st : dstate) : dstate :=
  let a := dtype_to_atop d in
  let f := descr st d s in
  if (is_sort s || match f with Some _ => true | None => false end) && negb (is_stub f s a)
  then set_descr d s (DStub s a) (set_old s a f st) else st.
Definition slots : list slot := [SortSlot 0; SortSlot 1; SortSlot 2; ArgSortSlot 0; ArgSortSlot 1; ArgSortSlot 2; ArgMaxSlot; ArgMinSlot; FillSlot].
(** one dtype of the loop, l.1537-1605; the loop *)
Definition hook_dtype (d : Z) (st : dstate) : dstate := fold_left (fun st s => hook_slot d s st) slots st.
Definition hook_descrs (ds : list Z) (st : dstate) : dstate := fold_left (fun st d => hook_dtype d st) ds st.
(** dtypes[], l.1258 *)
Definition hooked_dtypes : list Z := [0; 1; 2; 3; 4; 5; 6; 7; 8; 9; 10; 11; 12].
(** NumPy before initialize(): its own functions, where it has them *)
Definition numpy_descrs (has : Z -> slot -> bool) : dstate := mkD (fun d s => if has d s then Some (Own d s) else None) (fun _ _ => None).

(** What a call through a pointer comes to: NumPy's own function of a dtype; pnumpy's accelerated branch for a kind and type; a jump to NULL; or -1
    returned with no exception set (AtopArangeMathFunction, l.1140-1144, checks its pOldFunc). *)
Inductive came_to := NumpyRuns (d : Z) (s : slot) | PnumpyRuns (s : slot) (a : Z) | NullCall | MinusOne.
(** [takes s a]: whether AtopSortMathFunction (l.1012-1057), AtopArgSortMathFunction (l.1059-1101) or AtopArangeMathFunction (l.1122-1151) answers this
    call itself: enabled, the shape accepted, no negative result; it may be anything here (SortHook_Model, ArgHook_Model and Arange_Model say what
    it is).  AtopArgMinMaxMathFunction (l.1105-1118) never does.  With the ledger on they call themselves with it off (Ledger_Model): the
    same outcome. *)
Definition may_take (s : slot) : bool := match s with ArgMaxSlot | ArgMinSlot => false | _ => true end.
Inductive calls (st : dstate) (takes : slot -> Z -> bool) : option dfn -> came_to -> Prop :=
| calls_null : calls st takes None NullCall
| calls_own d s : calls st takes (Some (Own d s)) (NumpyRuns d s)
| calls_takes s a : may_take s = true -> takes s a = true -> calls st takes (Some (DStub s a)) (PnumpyRuns s a)
| calls_punts s a o : may_take s && takes s a = false -> (s = FillSlot -> old st s a <> None) -> calls st takes (old st s a) o -> calls st takes (Some (DStub s a)) o
| calls_fill a : takes FillSlot a = false -> old st FillSlot a = None -> calls st takes (Some (DStub FillSlot a)) MinusOne.
