(** Settings_Model.v - the switches of src/pnumpy/_pnumpy.cpp and the zigzag flag of src/atop/threads.h.

    One [call] is one Python-level call; [Ufunc n] is one call of a hooked function on n elements by the same Python
    thread (a complete call), [UfuncBegin]/[UfuncEnd] are the two ends of a hooked call that runs with the GIL released
    while another Python thread makes calls.  What the hooked call computes is modelled elsewhere; here only what it
    does to the settings.  Not modelled: argument parsing errors (the call raises and changes nothing). *)
From Verif Require Import Base Threads_Model.

(** the two possible values of ndarray's mp_subscript: NumPy's own, and GetItemHook (_pnumpy.cpp:1676-1710) *)
Inductive handler := NumpyHandler | GetItemHook.

(** struct stSettings, common.h:23-31, and the fields of CMathWorker/stGlobalWorkerParams the calls touch (threads.h:405-420, 652-665);
    [Subscript] is the slot tp_as_mapping->mp_subscript of the ndarray type; [Toggled i] is the ZigZag field the i-th
    threaded call's work item was given *)
Record settings := mkSet {
  AtopEnabled : bool; LedgerEnabled : bool; RecyclerEnabled : bool; Initialized : bool;
  NumpyGetItem : option handler; Subscript : handler;
  NoThreading : bool; FutexWakeCount : Z; ZigZagF : Z;
  Hooked : Z;        (* how many times the hooking loops of newinit ran *)
  Recorded : Z;      (* how many ledger records were made *)
  Directions : list bool   (* for each threaded call so far, most recent first: was it run backwards? *)
}.

(** _pnumpy.cpp:348 (g_Settings), threads.h:685, 405-420, 891-894 (StartWorkerThreads caps the default); W: number of worker threads *)
Definition start (W : Z) : settings :=
  mkSet true false false false None NumpyHandler false (Z.min FUTEX_WAKE_DEFAULT (W - 1)) 0 0 0 [].

Inductive call :=
| Initialize | AtopEnable | AtopDisable | AtopIsEnabled
| ThreadEnable | ThreadDisable | ThreadIsEnabled | ThreadSetWorkers (n : Z) | ThreadGetWorkers | ThreadZigzag
| LedgerEnable | LedgerDisable | LedgerIsEnabled
| RecyclerEnable | RecyclerDisable | RecyclerIsEnabled
| HookEnable (allocated : bool) | HookDisable (allocated : bool)
| Ufunc (n : Z) | UfuncBegin (n : Z) | UfuncEnd (k : nat).

Inductive reply := RNone | RBool (b : bool) | RInt (z : Z).

(** stWorkerRing::GetWorkItem copies the flag, SetWorkItem flips its low bit (threads.h:472-478, 531-533); only threaded calls
    (n >= WORK_ITEM_BIG and threading allowed, threads.h:1056-1073) get a work item.  The ExclusiveLock test of
    GetWorkItem always succeeds for calls made one after the other. *)
Definition run_loop (n : Z) (s : settings) : settings :=
  if negb (gets_work_item n (NoThreading s) false) then s
  else mkSet (AtopEnabled s) (LedgerEnabled s) (RecyclerEnabled s) (Initialized s) (NumpyGetItem s) (Subscript s)
             (NoThreading s) (FutexWakeCount s)
             (if ZigZagF s =? 0 then ZigZagF s else Z.lxor (ZigZagF s) 1)
             (Hooked s) (Recorded s) (Z.odd (ZigZagF s) :: Directions s).

Definition set_atop b s := mkSet b (LedgerEnabled s) (RecyclerEnabled s) (Initialized s) (NumpyGetItem s) (Subscript s) (NoThreading s) (FutexWakeCount s) (ZigZagF s) (Hooked s) (Recorded s) (Directions s).
Definition set_ledger b s := mkSet (AtopEnabled s) b (RecyclerEnabled s) (Initialized s) (NumpyGetItem s) (Subscript s) (NoThreading s) (FutexWakeCount s) (ZigZagF s) (Hooked s) (Recorded s) (Directions s).
Definition set_recycler b s := mkSet (AtopEnabled s) (LedgerEnabled s) b (Initialized s) (NumpyGetItem s) (Subscript s) (NoThreading s) (FutexWakeCount s) (ZigZagF s) (Hooked s) (Recorded s) (Directions s).
Definition set_nothreading b s := mkSet (AtopEnabled s) (LedgerEnabled s) (RecyclerEnabled s) (Initialized s) (NumpyGetItem s) (Subscript s) b (FutexWakeCount s) (ZigZagF s) (Hooked s) (Recorded s) (Directions s).
Definition set_futex z s := mkSet (AtopEnabled s) (LedgerEnabled s) (RecyclerEnabled s) (Initialized s) (NumpyGetItem s) (Subscript s) (NoThreading s) z (ZigZagF s) (Hooked s) (Recorded s) (Directions s).
Definition set_zigzag z s := mkSet (AtopEnabled s) (LedgerEnabled s) (RecyclerEnabled s) (Initialized s) (NumpyGetItem s) (Subscript s) (NoThreading s) (FutexWakeCount s) z (Hooked s) (Recorded s) (Directions s).
Definition set_hook g h s := mkSet (AtopEnabled s) (LedgerEnabled s) (RecyclerEnabled s) (Initialized s) g h (NoThreading s) (FutexWakeCount s) (ZigZagF s) (Hooked s) (Recorded s) (Directions s).
(** newinit, _pnumpy.cpp:1287-1296: the hooking loops (modelled in Hooks_Model.v) run at most once *)
Definition newinit s := if Initialized s then s else mkSet (AtopEnabled s) (LedgerEnabled s) (RecyclerEnabled s) true (NumpyGetItem s) (Subscript s) (NoThreading s) (FutexWakeCount s) (ZigZagF s) (Hooked s + 1) (Recorded s) (Directions s).
(** LedgerRecord/LedgerRecord2, ledger.cpp: only the count here *)
Definition record_one s := mkSet (AtopEnabled s) (LedgerEnabled s) (RecyclerEnabled s) (Initialized s) (NumpyGetItem s) (Subscript s) (NoThreading s) (FutexWakeCount s) (ZigZagF s) (Hooked s) (Recorded s + 1) (Directions s).

(** CMathWorker::SetFutexWakeup, threads.h:852-872 *)
Definition clamp_futex (W n : Z) : Z :=
  let n := if n <? 1 then 1 else n in
  let n := if n >? FUTEX_WAKE_MAX then FUTEX_WAKE_MAX else n in
  if n >? W - 1 then W - 1 else n.

(** LEDGER_START ... LEDGER_END, _pnumpy.cpp:351-355 and the tail of every Atop...MathFunction (e.g. 795-799) *)
Definition ledger_start s := set_ledger false s.
Definition ledger_end s := record_one (set_ledger true s).

(** the second component lists the hooked calls in progress on other Python threads, with the flag
    "LEDGER_END is still to run"; [UfuncEnd k] ends the k-th of them *)
Definition state : Type := settings * list bool.
Fixpoint drop_nth (k : nat) (o : list bool) : list bool :=
  match o, k with [], _ => [] | _ :: o', O => o' | b :: o', S k' => b :: drop_nth k' o' end.

(** one call; _pnumpy.cpp:1715-1965 *)
Definition step (W : Z) (c : call) (so : state) : state * reply :=
  let '(s, o) := so in
  match c with
  | Initialize => ((newinit s, o), RNone)
  | AtopEnable => ((set_atop true s, o), RNone)
  | AtopDisable => ((set_atop false s, o), RNone)
  | AtopIsEnabled => (so, RBool (AtopEnabled s))
  | ThreadEnable => ((set_nothreading false s, o), RNone)
  | ThreadDisable => ((set_nothreading true s, o), RNone)
  | ThreadIsEnabled => (so, RBool (negb (NoThreading s)))
  | ThreadSetWorkers n => ((set_futex (clamp_futex W n) s, o), RInt (FutexWakeCount s))
  | ThreadGetWorkers => (so, RInt (FutexWakeCount s))
  | ThreadZigzag => if ZigZagF s =? 0 then ((set_zigzag 3 s, o), RBool true) else ((set_zigzag 0 s, o), RBool false)
  | LedgerEnable => ((set_ledger true s, o), RNone)
  | LedgerDisable => ((set_ledger false s, o), RNone)
  | LedgerIsEnabled => (so, RBool (LedgerEnabled s))
  | RecyclerEnable => ((set_recycler true s, o), RNone)
  | RecyclerDisable => ((set_recycler false s, o), RNone)
  | RecyclerIsEnabled => (so, RBool (RecyclerEnabled s))
  | HookEnable ok =>
      match NumpyGetItem s with
      | None => if ok then ((set_hook (Some (Subscript s)) GetItemHook s, o), RBool true) else (so, RBool false)
      | Some _ => (so, RBool false)
      end
  | HookDisable ok =>
      match NumpyGetItem s with
      | Some h => if ok then ((set_hook None h s, o), RBool true) else (so, RBool false)
      | None => (so, RBool false)
      end
  | Ufunc n => if LedgerEnabled s then ((ledger_end (run_loop n (ledger_start s)), o), RNone) else ((run_loop n s, o), RNone)
  | UfuncBegin n => if LedgerEnabled s then ((run_loop n (ledger_start s), true :: o), RNone) else ((run_loop n s, false :: o), RNone)
  | UfuncEnd k => match nth_error o k with None => (so, RNone) | Some b => ((if b then ledger_end s else s, drop_nth k o), RNone) end
  end.

(** a history: the state after it and the replies, oldest first *)
Fixpoint run (W : Z) (h : list call) (so : state) : state * list reply :=
  match h with
  | [] => (so, [])
  | c :: h' => let '(so1, r) := step W c so in let '(so2, rs) := run W h' so1 in (so2, r :: rs)
  end.
