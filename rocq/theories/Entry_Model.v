(** Entry_Model.v - the loop that runs when NumPy calls a ufunc's loop after initialize(): the stub of stubs.h (DEF_BINARY_USTUB, DEF_COMP_USTUB,
    DEF_UNARY_USTUB: every entry [op][type] of the LUTs calls the category's function with its own op and type) looks its slot up
    and takes its kernel or NumPy's loop.  The callbacks themselves: Ufunc_Model.chosen, UfuncCmp_Model.cchosen, UfuncUn_Model.uchosen. *)
From Coq Require Import String.
From Verif Require Import Base Kernel_Model Float_Model Compare_Model Unary_Model Round_Model Arith_Model Trig_Model Hooks_Model
  Threads_Model Jobs_Model Sort_Model Ufunc_Model UfuncCmp_Model UfuncUn_Model Sqrt_Model RedBytes_Model Dispatch_Model.
Local Open Scope Z_scope.

(** AtopBinaryMathFunction, src/pnumpy/_pnumpy.cpp:638-645, 729-732: pstUFunc = &g_UFuncLUT[op][atype], its pBinaryFunc.
    [Np]: the loop was not hooked, NumPy runs its own and no code of pnumpy is involved (as with no kernel). *)
Definition found_binary (l : Hooks_Model.loop) : option kernel :=
  match l with
  | Stub Binary op a => match kernel_of Binary op a with Some (KInt e) => Some (of_entry e) | Some (KFloat e) => Some (of_fentry e) | _ => None end
  | _ => None
  end.
(** AtopCompareMathFunction, l.805-824 *)
Definition found_compare (l : Hooks_Model.loop) : option ckernel :=
  match l with Stub Compare op a => match kernel_of Compare op a with Some (KCmp k) => Some k | _ => None end | _ => None end.
Definition cchosen_at (enabled : bool) (found : option ckernel) (sz : Z) (ncmp : Z -> Z -> bool) : ckernel :=
  match found with Some k => if enabled then k else KCNumpy sz ncmp | None => KCNumpy sz ncmp end.
(** AtopUnaryMathFunction, l.874-897; AtopTrigMathFunction, l.938-961: with the scalar operation [libm] for the elements past the last
    register *)
Definition found_unary (libm : Z -> Z) (l : Hooks_Model.loop) : option ukernel :=
  match l with
  | Stub Unary op a => match kernel_of Unary op a with Some (KUn k) => Some k | _ => None end
  | Stub Trig op a => match kernel_of Trig op a, fmt_of a with Some (KTrig lane), Some f => Some (UFast (fwidth f / 8) libm lane) | _, _ => None end
  | _ => None
  end.
