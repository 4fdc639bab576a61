(** EntryRed_Model.v - the reduction that runs when NumPy calls a ufunc's loop on reduction arguments after initialize(): AtopBinaryMathFunction,
    src/pnumpy/_pnumpy.cpp:638-727, with the slot and the start value of the stub's own op and type.  The call itself: RedBytes_Model. *)
From Coq Require Import String.
From Verif Require Import Base Kernel_Model Float_Model Compare_Model Arith_Model Hooks_Model Threads_Model Jobs_Model Sort_Model Ufunc_Model RedBytes_Model Dispatch_Model.
Local Open Scope Z_scope.

(** l.648: pReduceFunc of the slot.  None: there is none, or it is the float32 one (RUp, Reduce_Model), or the loop is not hooked *)
Definition found_reduce (l : Hooks_Model.loop) : option ((Z -> Z -> Z) * (Z -> Z -> Z)) :=
  match l with Stub Binary op a => match reduce_slot op a with Some (RInt o ov) | Some (RDouble o ov) => Some (o, ov) | _ => None end | _ => None end.
(** GetReduceStartVal(funcop, atype), l.605-632, for the types of the table with a kernel in RedBytes_Model (float32 and the others of l.616-627
    left out: None here, their own constants there) *)
Definition start_of_stub (op a : Z) : option gvar :=
  if op =? 1 then Some g_startval_zero
  else if op =? 3 then if a <? 9 then Some g_startval_one else if a =? 13 then Some g_startval_one_double else None
  else None.
(** stCallback.pStartVal, l.676-679 *)
Definition start_at (at_ : gvar -> Z) (l : Hooks_Model.loop) (op1 : Z) : Z :=
  match l with Stub Binary op a => match start_of_stub op a with Some g => at_ g | None => op1 end | _ => op1 end.
(** NumPy's own loop is called for the whole row; only a stub splits it *)
Definition is_hooked (l : Hooks_Model.loop) : Prop := match l with Stub _ _ _ => True | Np _ _ _ => False end.
