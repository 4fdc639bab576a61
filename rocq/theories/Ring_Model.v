(** Ring_Model.v - consecutive threaded calls sharing the ring of work items.

    Part 1: the fine-grained ring machine (one pool): each shared access of WorkMain, of the worker loop and
    of GetNextWorkBlockCore is its own step, so a worker may fetch a ring slot that the caller is still filling.
    Part 2: histories of calls in which every worker fetched its slot while that call was running. *)
From Verif Require Import Base Threads_Model.

(** ---------------- Part 1 ---------------- *)
(** threads.h:428-429 *)
Definition RING_BUFFER_SIZE : Z := 1024.
Definition RING_BUFFER_MASK : Z := 1023.
Definition slot_of (workIndex : Z) : Z := Z.land workIndex RING_BUFFER_MASK.

(** position inside a Callback/GetNextWorkBlockCore loop on a slot (threads.h:319-391, _pnumpy.cpp:448-477).
    Unlike Threads_Model.pc the increment of CurrentBlock and the comparison with LastBlock are separate steps. *)
Inductive tpc :=
| TDraw (i : Z) (stealing : bool)             (* InterlockedIncrement64(&CurrentBlock), threads.h:324 *)
| TCmp (i : Z) (stealing : bool) (block : Z)  (* if (block < LastBlock), threads.h:329 *)
| TBump (lb : Z)                              (* InterlockedIncrement64(&BlockNext) *)
| TWork (lb : Z)                              (* the user loop on the block (one step) *)
| TFin (lb : Z)                               (* CompleteWorkBlock (the block is carried for the history only) *)
| TCheck                                      (* BlockNext >= BlockLast *)
| TSteal (i : Z)
| TDone.                                      (* callback returned *)

(** worker loop, threads.cpp:103-121 *)
Inductive rpc :=
| RTop                      (* about to read Pool.WorkIndex and WorkIndexCompleted (one step) *)
| RFetch                    (* saw work; about to GetExistingWorkItem (threads.h:487) *)
| REntitled (sl : Z)        (* about to test core <= ThreadWakeup *)
| RArg (sl : Z)             (* entering DoWork: about to read WorkCallbackArg *)
| RRun (sl arg : Z) (t : tpc).

(** the caller: GetWorkItem + WorkMain, one write per step in source order (threads.h:480-486, 1079-1180) *)
Inductive mpc :=
| MGet | MArg | MTotal | MWake | MLast | MComp | MNext | MSize
| MCur (i : Z) | MLastBlock (i : Z) | MMark | MSet
| MRun (t : tpc) | MWait | MComplete.

Record rstate := mkR {
  MainWorkIndex : Z;
  PoolWorkIndex : Z;
  PoolWorkIndexCompleted : Z;
  slots : Z -> item;
  slotArg : Z -> Z;             (* WorkCallbackArg: which call's data *)
  call_no : Z;                  (* history: the call the caller is in (1, 2, ...) *)
  mainpc : mpc;
  wpc : Z -> rpc;
  rlog : list (Z * Z);          (* history: (call whose data was processed, logical block) *)
  returned : list Z             (* history: calls that have returned *)
}.

Section Ring.
  (** length and woken workers of call k; all calls chunked ufunc calls, zigzag off *)
  Variables (clen cwake : Z -> Z).

  Definition upd_item (s : rstate) (sl : Z) (f : item -> item) : rstate :=
    mkR (MainWorkIndex s) (PoolWorkIndex s) (PoolWorkIndexCompleted s)
        (zupd (slots s) sl (f (slots s sl))) (slotArg s) (call_no s) (mainpc s) (wpc s) (rlog s) (returned s).
  Definition set_main (s : rstate) (p : mpc) : rstate :=
    mkR (MainWorkIndex s) (PoolWorkIndex s) (PoolWorkIndexCompleted s) (slots s) (slotArg s)
        (call_no s) p (wpc s) (rlog s) (returned s).
  Definition set_worker (s : rstate) (c : Z) (p : rpc) : rstate :=
    mkR (MainWorkIndex s) (PoolWorkIndex s) (PoolWorkIndexCompleted s) (slots s) (slotArg s)
        (call_no s) (mainpc s) (zupd (wpc s) c p) (rlog s) (returned s).
  Definition add_log (s : rstate) (e : Z * Z) : rstate :=
    mkR (MainWorkIndex s) (PoolWorkIndex s) (PoolWorkIndexCompleted s) (slots s) (slotArg s)
        (call_no s) (mainpc s) (wpc s) (rlog s ++ [e]) (returned s).

  Definition set_total (v : Z) (i : item) : item :=
    mkItem v (ThreadWakeup i) (BlockLast i) (BlockSize i) (ZigZag i) (BlockNext i) (BlocksCompleted i) (WorkerChannel i).
  Definition set_wake (v : Z) (i : item) : item :=
    mkItem (TotalElements i) v (BlockLast i) (BlockSize i) (ZigZag i) (BlockNext i) (BlocksCompleted i) (WorkerChannel i).
  Definition set_last (v : Z) (i : item) : item :=
    mkItem (TotalElements i) (ThreadWakeup i) v (BlockSize i) (ZigZag i) (BlockNext i) (BlocksCompleted i) (WorkerChannel i).
  Definition set_size (v : Z) (i : item) : item :=
    mkItem (TotalElements i) (ThreadWakeup i) (BlockLast i) v (ZigZag i) (BlockNext i) (BlocksCompleted i) (WorkerChannel i).
  Definition set_lastblock (ch v : Z) (i : item) : item :=
    mkItem (TotalElements i) (ThreadWakeup i) (BlockLast i) (BlockSize i) (ZigZag i) (BlockNext i) (BlocksCompleted i)
           (zupd (WorkerChannel i) ch (mkChan (CurrentBlock (WorkerChannel i ch)) v)).

  (** one step of a callback loop of thread [core] on slot [sl] with call data [arg];
      GetNextWorkBlockCoreInternal and GetNextWorkBlockCore, threads.h:319-391 *)
  Definition tstep (s : rstate) (core sl arg : Z) (t : tpc) : rstate * tpc :=
    let it := slots s sl in
    match t with
    | TDraw i st => (upd_item s sl (fun it => set_cur it i (CurrentBlock (WorkerChannel it i) + 1)),
                     TCmp i st (CurrentBlock (WorkerChannel it i)))
    | TCmp i st b =>
        if b <? LastBlock (WorkerChannel it i) then (s, TBump (logical_block it i b))
        else (s, if st then TSteal (i + 1) else TCheck)
    | TBump lb => (upd_item s sl (fun it => set_next it (BlockNext it + 1)), TWork lb)
    | TWork lb => (add_log s (arg, lb), TFin lb)
    | TFin _ => (upd_item s sl (fun it => set_completed it (BlocksCompleted it + 1)), TDraw core false)
    | TCheck => (s, if BlockLast it <=? BlockNext it then TDone else TSteal 0)
    | TSteal i => (s, if i <=? ThreadWakeup it then (if i =? core then TSteal (i + 1) else TDraw i true) else TDone)
    | TDone => (s, TDone)
    end.

  Definition mstep (s : rstate) : rstate :=
    let k := call_no s in
    let n := clen k in let t := cwake k in
    let sl := slot_of (MainWorkIndex s) in
    let it := slots s sl in
    match mainpc s with
    | MGet => (* GetWorkItem: MainWorkIndex++ *)
        mkR (MainWorkIndex s + 1) (PoolWorkIndex s) (PoolWorkIndexCompleted s) (slots s) (slotArg s)
            k MArg (wpc s) (rlog s) (returned s)
    | MArg => (* pWorkItem->WorkCallbackArg = &stCallback *)
        mkR (MainWorkIndex s) (PoolWorkIndex s) (PoolWorkIndexCompleted s) (slots s) (zupd (slotArg s) sl k)
            k MTotal (wpc s) (rlog s) (returned s)
    | MTotal => set_main (upd_item s sl (set_total n)) MWake
    | MWake => set_main (upd_item s sl (set_wake t)) MLast
    | MLast => set_main (upd_item s sl (set_last ((n + (WORK_ITEM_CHUNK - 1)) / WORK_ITEM_CHUNK))) MComp
    | MComp => set_main (upd_item s sl (fun i => set_completed i 0)) MNext
    | MNext => set_main (upd_item s sl (fun i => set_next i 0)) MSize
    | MSize => set_main (upd_item s sl (set_size WORK_ITEM_CHUNK)) (MCur 0)
    | MCur i => if i <? t + 1 then set_main (upd_item s sl (fun it => set_cur it i 0)) (MLastBlock i)
                else set_main s MMark
    | MLastBlock i =>
        set_main (upd_item s sl (set_lastblock i (BlockLast it / (t + 1) + (if i <? BlockLast it mod (t + 1) then 1 else 0))))
                 (MCur (i + 1))
    | MMark => set_main (upd_item s sl (fun it => set_cur it (t + 1) (-1))) MSet
    | MSet => (* SetWorkItem: Pool[0].WorkIndex = workIndex *)
        mkR (MainWorkIndex s) (MainWorkIndex s) (PoolWorkIndexCompleted s) (slots s) (slotArg s)
            k (MRun (TDraw 0 false)) (wpc s) (rlog s) (returned s)
    | MRun TDone => set_main s MWait
    | MRun p => let (s', p') := tstep s 0 sl k p in set_main s' (MRun p')
    | MWait => if BlocksCompleted it <? BlockLast it then s else set_main s MComplete
    | MComplete => (* CompleteWorkItem; WorkMain returns *)
        mkR (MainWorkIndex s) (PoolWorkIndex s) (MainWorkIndex s) (slots s) (slotArg s)
            (k + 1) MGet (wpc s) (rlog s) (returned s ++ [k])
    end.

  Definition wstep (c : Z) (s : rstate) : rstate :=
    match wpc s c with
    | RTop => if PoolWorkIndexCompleted s <? PoolWorkIndex s then set_worker s c RFetch else s
    | RFetch => set_worker s c (REntitled (slot_of (MainWorkIndex s)))
    | REntitled sl => if c <=? ThreadWakeup (slots s sl) then set_worker s c (RArg sl) else set_worker s c RTop
    | RArg sl => set_worker s c (RRun sl (slotArg s sl) (TDraw c false))
    | RRun sl arg TDone => set_worker s c RTop
    | RRun sl arg p => let (s', p') := tstep s c sl arg p in set_worker s' c (RRun sl arg p')
    end.

  Definition rstep (c : Z) (s : rstate) : rstate := if c =? 0 then mstep s else wstep c s.
  Definition rrun (s : rstate) (sched : list Z) : rstate := fold_left (fun s c => rstep c s) sched s.

  (** stWorkerRing::Init, threads.h:444-465, on a freshly mapped (zero) block *)
  Definition zero_item : item := mkItem 0 0 0 0 false 0 0 (fun _ => mkChan 0 0).
  Definition ring_init : rstate :=
    mkR 0 0 0 (fun _ => zero_item) (fun _ => 0) 1 MGet (fun _ => RTop) [] [].
End Ring.

(** ---------------- Part 2 ---------------- *)
(** A history of element-wise calls.  Each call is a run of the machine of Threads_Model.v (worker pointers fetched while
    the call was live); all calls share one memory; workers still inside an earlier call may go on stepping in it
    at any time (the ring keeps a finished call's slot intact for the next 1023 calls). *)
Record call (V : Type) := mkCall { c_u : ufunc V; c_n : Z; c_T : Z; c_zz : bool }.
Arguments c_u {V}. Arguments c_n {V}. Arguments c_T {V}. Arguments c_zz {V}.

Record hstate (V : Type) := mkH {
  hmem : Z -> V;
  hcalls : list (call V * state V)   (* newest first; the [mem] field of the states is not used *)
}.
Arguments hmem {V}. Arguments hcalls {V}. Arguments mkH {V}.

Inductive hevent (V : Type) :=
| EStart (c : call V)        (* the caller begins a new call (ignored while a call is running) *)
| EStep (j : nat) (core : Z) (* thread [core] makes one step in the call started j calls ago (0 = newest) *).
Arguments EStart {V}. Arguments EStep {V}.

Definition with_mem {V} (s : state V) (m : Z -> V) : state V := mkState V (it s) (pcs s) m (log s).

Definition is_ret (p : pc) : bool := match p with Returned => true | _ => false end.

Fixpoint step_nth {V} (j : nat) (core : Z) (m : Z -> V) (l : list (call V * state V)) {struct l} : (Z -> V) * list (call V * state V) :=
  match l with
  | [] => (m, [])
  | (c, s) :: r =>
      match j with
      | O => let s' := step (c_u c) core (with_mem s m) in (mem s', (c, s') :: r)
      | S j' => let (m', r') := step_nth j' core m r in (m', (c, s) :: r')
      end
  end.

Definition hstep {V} (h : hstate V) (e : hevent V) : hstate V :=
  match e with
  | EStart c =>
      let ok := match hcalls h with [] => true | (_, s) :: _ => is_ret (pcs s 0) end in
      if ok then mkH (hmem h) ((c, start (c_n c) (c_T c) (c_zz c) (hmem h)) :: hcalls h) else h
  | EStep j core => let (m, l) := step_nth j core (hmem h) (hcalls h) in mkH m l
  end.

Definition hrun {V} (h : hstate V) (es : list (hevent V)) : hstate V := fold_left hstep es h.
Definition hinit {V} (m : Z -> V) : hstate V := mkH m [].
