(** Threads_Model.v - the work-splitting engine of src/atop/threads.h as an interleaving machine.

    One work item, any number of worker threads.  One [step] of one thread is one atomic
    access to the shared fields (an Interlocked call or a volatile read) or one element of
    the user loop.  A schedule is a list of core numbers; core 0 is the calling thread.

    Simplifications (all executions of the code are executions of the model):
    - fields that WorkMain writes once before waking anybody (TotalElements, ThreadWakeup,
      BlockLast, BlockSize, ZigZag, LastBlock) are read in the same step as the atomic
      access next to them;
    - a worker may enter DoWork at any time, any number of times (threads.cpp:103-120 decides
      when by reading the pool fields; the model allows every decision);
    - sequential consistency of the shared accesses. *)
From Verif Require Import Base.

(** threads.h:196-200 *)
Definition WORK_ITEM_CHUNK : Z := 16384.               (* 0x4000 *)
Definition WORK_ITEM_BIG : Z := WORK_ITEM_CHUNK * 4.
Definition WORK_ITEM_MASK : Z := WORK_ITEM_CHUNK - 1.

(** threads.h:53-67 *)
Definition MAX_THREADS_WHEN_CANNOT_DETECT : Z := 5.
Definition MAX_WORKER_CHANNEL : Z := 4.
Definition MAX_WORKER_POOL : Z := 4.
Definition MAX_WORKER_RINGS : Z := 1.
Definition MAX_WORKER_HANDLES : Z := MAX_WORKER_CHANNEL * MAX_WORKER_POOL * MAX_WORKER_RINGS.
Definition MAX_THREADS_ALLOWED : Z := MAX_WORKER_HANDLES - 1.
Definition FUTEX_WAKE_MAX : Z := MAX_WORKER_HANDLES - 1.
Definition FUTEX_WAKE_DEFAULT : Z := 11.

(** struct stWorkerChannel, threads.h:158-161 *)
Record channel := mkChan { CurrentBlock : Z; LastBlock : Z }.

(** struct stMATH_WORKER_ITEM, threads.h:165-251 (the fields the engine uses).
    [ZigZag] is the low bit of the field, the only one tested (threads.h:333). *)
Record item := mkItem {
  TotalElements : Z;
  ThreadWakeup : Z;
  BlockLast : Z;
  BlockSize : Z;
  ZigZag : bool;
  BlockNext : Z;
  BlocksCompleted : Z;
  WorkerChannel : Z -> channel
}.

(** threads.h:1090-1103: how many workers a call wakes. *)
Definition effective_wakeup (maxWakeup threadWakeup : Z) : Z :=
  if threadWakeup <=? 0 then maxWakeup
  else if threadWakeup <? maxWakeup then threadWakeup else maxWakeup.

(** threads.h:1085-1137: WorkMain up to SetWorkItem.  [generic]=TRUE is the chunked mode. *)
Definition work_main_init (len wakeup blockSize : Z) (generic zigzag : bool) : item :=
  let blast := if generic then (len + (blockSize - 1)) / blockSize else len + 1 in
  let threads := wakeup + 1 in
  let numerator := blast / threads in
  let modval := blast mod threads in
  {| TotalElements := len; ThreadWakeup := wakeup; BlockLast := blast; BlockSize := blockSize;
     ZigZag := zigzag; BlockNext := 0; BlocksCompleted := 0;
     WorkerChannel := fun i =>
       {| CurrentBlock := 0; LastBlock := numerator + (if i <? modval then 1 else 0) |} |}.

Definition set_cur (it : item) (i : Z) (v : Z) : item :=
  {| TotalElements := TotalElements it; ThreadWakeup := ThreadWakeup it; BlockLast := BlockLast it;
     BlockSize := BlockSize it; ZigZag := ZigZag it; BlockNext := BlockNext it;
     BlocksCompleted := BlocksCompleted it;
     WorkerChannel := zupd (WorkerChannel it) i
        {| CurrentBlock := v; LastBlock := LastBlock (WorkerChannel it i) |} |}.
Definition set_next (it : item) (v : Z) : item :=
  {| TotalElements := TotalElements it; ThreadWakeup := ThreadWakeup it; BlockLast := BlockLast it;
     BlockSize := BlockSize it; ZigZag := ZigZag it; BlockNext := v;
     BlocksCompleted := BlocksCompleted it; WorkerChannel := WorkerChannel it |}.
Definition set_completed (it : item) (v : Z) : item :=
  {| TotalElements := TotalElements it; ThreadWakeup := ThreadWakeup it; BlockLast := BlockLast it;
     BlockSize := BlockSize it; ZigZag := ZigZag it; BlockNext := BlockNext it;
     BlocksCompleted := v; WorkerChannel := WorkerChannel it |}.

(** Length of a block: threads.h:341-351 and 297-311 (same code twice). *)
Definition block_length (it : item) (logicalblock : Z) : Z :=
  if logicalblock + 1 =? BlockLast it then
    if negb (Z.land (TotalElements it) WORK_ITEM_MASK =? 0)
    then Z.land (TotalElements it) WORK_ITEM_MASK
    else BlockSize it
  else BlockSize it.

(** Logical block of raw draw [block] in channel [core]: threads.h:333-340. *)
Definition logical_block (it : item) (core block : Z) : Z :=
  let block' := if ZigZag it then LastBlock (WorkerChannel it core) - block - 1 else block in
  block' * (ThreadWakeup it + 1) + core.

(** A ufunc call as the callbacks see it: UFUNC_CALLBACK, _pnumpy.cpp:208-238.
    Memory is a table of element cells indexed by byte address (an element is one cell;
    partially overlapping elements are not expressible). [fop] is the scalar operation of the loop;
    for a unary ufunc it ignores its second argument. *)
Record ufunc (V : Type) := mkUfunc {
  pDataIn1 : Z; pDataIn2 : Z; pDataOut : Z;
  itemSizeIn1 : Z; itemSizeIn2 : Z; itemSizeOut : Z;
  fop : V -> V -> V }.
Arguments pDataIn1 {V}. Arguments pDataIn2 {V}. Arguments pDataOut {V}.
Arguments itemSizeIn1 {V}. Arguments itemSizeIn2 {V}. Arguments itemSizeOut {V}. Arguments fop {V}.

(** Program counter of one thread running a BinaryThreadCallbackStrided-style callback
    (_pnumpy.cpp:448-477 and its siblings) around GetNextWorkBlockCore (threads.h:365-391). *)
Inductive pc :=
| Idle                        (* worker: not inside DoWork *)
| Draw (i : Z) (stealing : bool) (* about to InterlockedIncrement64 channel i's CurrentBlock *)
| Bump (lb len : Z)           (* block drawn; about to InterlockedIncrement64 BlockNext *)
| Work (lb len k : Z)         (* user loop on block lb, k elements done *)
| Finish (lb : Z)             (* about to CompleteWorkBlock *)
| Check                       (* own channel empty: about to read BlockNext (threads.h:372) *)
| Steal (i : Z)               (* head of the stealing loop (threads.h:378) *)
| Wait                        (* caller: spin on BlocksCompleted (threads.h:1152) *)
| Returned.                   (* caller: WorkMain returned *)

Record state (V : Type) := mkState {
  it : item;
  pcs : Z -> pc;
  mem : Z -> V;
  log : list Z        (* history: element numbers in the order they were written *)
}.
Arguments it {V}. Arguments pcs {V}. Arguments mem {V}. Arguments log {V}.

Section Machine.
  Context {V : Type} (u : ufunc V).

  Definition goto (s : state V) (c : Z) (p : pc) : state V :=
    mkState V (it s) (zupd (pcs s) c p) (mem s) (log s).
  Definition with_item (s : state V) (i : item) : state V :=
    mkState V i (pcs s) (mem s) (log s).

  (** One element of the user loop on a block: the callback offsets every pointer by
      BlockSize * workBlock * itemSize (_pnumpy.cpp:461-463) and the loop then advances by itemSize. *)
  Definition do_element (s : state V) (lb k : Z) : state V :=
    let a1 := pDataIn1 u + BlockSize (it s) * lb * itemSizeIn1 u + k * itemSizeIn1 u in
    let a2 := pDataIn2 u + BlockSize (it s) * lb * itemSizeIn2 u + k * itemSizeIn2 u in
    let ao := pDataOut u + BlockSize (it s) * lb * itemSizeOut u + k * itemSizeOut u in
    mkState V (it s) (pcs s) (zupd (mem s) ao (fop u (mem s a1) (mem s a2)))
            (log s ++ [BlockSize (it s) * lb + k]).

  (** The callback returned 0: the caller goes on to wait (threads.h:1148-1156), a worker leaves DoWork. *)
  Definition stop (c : Z) : pc := if c =? 0 then Wait else Idle.

  Definition step (c : Z) (s : state V) : state V :=
    match pcs s c with
    | Idle =>
        (* threads.cpp:115: "core <= pWorkItem->ThreadWakeup" *)
        if (1 <=? c) && (c <=? ThreadWakeup (it s)) then goto s c (Draw c false) else s
    | Draw i stealing =>
        let ch := WorkerChannel (it s) i in
        let block := CurrentBlock ch in
        let s' := with_item s (set_cur (it s) i (block + 1)) in
        if block <? LastBlock ch then
          let lb := logical_block (it s) i block in
          goto s' c (Bump lb (block_length (it s) lb))
        else goto s' c (if stealing then Steal (i + 1) else Check)
    | Bump lb len =>
        goto (with_item s (set_next (it s) (BlockNext (it s) + 1))) c (Work lb len 0)
    | Work lb len k =>
        if k <? len then goto (do_element s lb k) c (Work lb len (k + 1))
        else goto s c (Finish lb)
    | Finish lb =>
        goto (with_item s (set_completed (it s) (BlocksCompleted (it s) + 1))) c (Draw c false)
    | Check =>
        if BlockLast (it s) <=? BlockNext (it s) then goto s c (stop c) else goto s c (Steal 0)
    | Steal i =>
        if i <=? ThreadWakeup (it s) then
          if i =? c then goto s c (Steal (i + 1)) else goto s c (Draw i true)
        else goto s c (stop c)
    | Wait =>
        if BlocksCompleted (it s) <? BlockLast (it s) then s else goto s c Returned
    | Returned => s
    end.

  Definition run (s : state V) (sched : list Z) : state V :=
    fold_left (fun s c => step c s) sched s.

  (** The state just after SetWorkItem: the caller enters DoWork(0), workers are anywhere outside.
      [len] elements, [wakeup] workers, chunked mode (WorkMain's defaults). *)
  Definition start (len wakeup : Z) (zigzag : bool) (m : Z -> V) : state V :=
    mkState V (work_main_init len wakeup WORK_ITEM_CHUNK true zigzag)
            (fun c => if c =? 0 then Draw 0 false else Idle) m [].
End Machine.

(** The unthreaded loop (AtopBinaryMathFunction, _pnumpy.cpp:744-750: pBinaryFunc(args..., n, steps...)):
    elements 0..n-1 in order. *)
Definition seq_loop {V} (u : ufunc V) (n : Z) (m : Z -> V) : Z -> V :=
  fold_left (fun m e =>
      zupd m (pDataOut u + e * itemSizeOut u)
           (fop u (m (pDataIn1 u + e * itemSizeIn1 u)) (m (pDataIn2 u + e * itemSizeIn2 u))))
    (zrange 0 n) m.

(** ------------------------------------------------------------------ *)
(** Shared-counter hand-out: GetNextWorkBlock / GetNextWorkIndex, used by
    MultiThreadedChunkCallback and MultiThreadedCounterCallback. *)

Inductive mode := ChunkMode | IndexMode.

(** What a draw of counter value [w] yields: (start, length) of the piece handed to the callback, or nothing.
    ChunkMode: threads.h:288-313 and 994-996 (start = BlockSize * workBlock).
    IndexMode: threads.h:271-282 and 936-940: the loop continues only while the returned value is > 0,
    and the callback receives index-1. *)
Definition take (md : mode) (i : item) (w : Z) : option (Z * Z) :=
  match md with
  | ChunkMode =>
      if w <? BlockLast i then Some (BlockSize i * w, block_length i w) else None
  | IndexMode =>
      let index := if w <? BlockLast i then w else 0 in
      if 0 <? index then Some (index - 1, 1) else None
  end.

(** Blocks the caller waits for: threads.h:1150-1166. *)
Definition target (md : mode) (i : item) : Z :=
  match md with ChunkMode => BlockLast i | IndexMode => TotalElements i end.

Inductive cpc :=
| CIdle                           (* worker: outside DoWork *)
| CDraw                           (* about to InterlockedIncrement64 BlockNext *)
| CWork (start len : Z) (w : Z)   (* inside the user callback on piece (start,len) *)
| CFinish (w : Z)
| CWait
| CReturned.

Record cstate := mkC {
  cit : item;
  cpcs : Z -> cpc;
  calls : list (Z * Z);   (* history: callback invocations (start,len), in order of invocation *)
  fins : list (Z * Z)     (* history: callback invocations that have returned *)
}.

Section CounterMachine.
  Variable md : mode.
  Definition cgoto (s : cstate) (c : Z) (p : cpc) : cstate :=
    mkC (cit s) (zupd (cpcs s) c p) (calls s) (fins s).

  Definition cstep (c : Z) (s : cstate) : cstate :=
    match cpcs s c with
    | CIdle =>
        if (1 <=? c) && (c <=? ThreadWakeup (cit s)) then cgoto s c CDraw else s
    | CDraw =>
        let w := BlockNext (cit s) in
        let s' := mkC (set_next (cit s) (w + 1)) (cpcs s) (calls s) (fins s) in
        match take md (cit s) w with
        | Some (st, len) =>
            cgoto (mkC (cit s') (cpcs s') (calls s' ++ [(st, len)]) (fins s')) c (CWork st len w)
        | None => cgoto s' c (if c =? 0 then CWait else CIdle)
        end
    | CWork st len w => cgoto (mkC (cit s) (cpcs s) (calls s) (fins s ++ [(st, len)])) c (CFinish w)
    | CFinish w =>
        cgoto (mkC (set_completed (cit s) (BlocksCompleted (cit s) + 1)) (cpcs s) (calls s) (fins s)) c CDraw
    | CWait => if BlocksCompleted (cit s) <? target md (cit s) then s else cgoto s c CReturned
    | CReturned => s
    end.

  Definition crun (s : cstate) (sched : list Z) : cstate :=
    fold_left (fun s c => cstep c s) sched s.

  (** WorkMain(pWorkItem, len, wakeup) for chunks (threads.h:1025), WorkMain(.., 1, FALSE) for indices
      (threads.h:967). *)
  Definition cstart (len wakeup : Z) (zigzag : bool) : cstate :=
    mkC (match md with
         | ChunkMode => work_main_init len wakeup WORK_ITEM_CHUNK true zigzag
         | IndexMode => work_main_init len wakeup 1 false zigzag
         end)
        (fun c => if c =? 0 then CDraw else CIdle) [] [].
End CounterMachine.

(** ------------------------------------------------------------------ *)
(** Worker counts and pool signalling. *)

(** GetProcCount, threads.cpp:662-686, given the number of bits in the affinity mask. *)
Definition GetProcCount (count : Z) : Z :=
  let count := if count =? 0 then MAX_THREADS_WHEN_CANNOT_DETECT else count in
  if count >? MAX_THREADS_ALLOWED then MAX_THREADS_ALLOWED else count.

(** StartWorkerThreads, threads.h:893-896 (Linux: no hyper-threading adjustment, both counts are 0). *)
Definition start_futex (workerThreadCount futex : Z) : Z :=
  let maxFutex := workerThreadCount - 1 in
  if futex >? maxFutex then maxFutex else futex.

(** SetFutexWakeup, threads.h:852-873: (new value, returned previous value). *)
Definition SetFutexWakeup (workerThreadCount previous howMany : Z) : Z * Z :=
  let h := if howMany <? 1 then 1 else howMany in
  let h := if h >? FUTEX_WAKE_MAX then FUTEX_WAKE_MAX else h in
  let maxFutex := workerThreadCount - 1 in
  let h := if h >? maxFutex then maxFutex else h in
  (h, previous).

(** SetWorkItem, threads.h:526-556: list of (pool, number of threads asked to wake). *)
Definition signalled (maxThreadsToWake : Z) : list (Z * Z) :=
  if maxThreadsToWake >? 3 then
    let m := maxThreadsToWake - 3 in
    [(0, 3); (1, 4)] ++
    (if m >? 4 then
       let m := m - 4 in
       [(2, 4)] ++ (if m >? 4 then [(3, 4)] else [])
     else [])
  else [(0, maxThreadsToWake)].

(** CompleteWorkItem, threads.h:562-579: pools released. *)
Definition released (threadWakeup : Z) : list Z :=
  [0] ++ (if threadWakeup >? 3 then
            [1] ++ (if threadWakeup >? 7 then
                      [2] ++ (if threadWakeup >? 11 then [3] else [])
                    else [])
          else []).

(** WorkerThreadFunction, threads.cpp:80-83: the n-th started worker (n = 1, 2, ...) is core n in this pool. *)
Definition pool_of (core : Z) : Z := core / MAX_WORKER_CHANNEL.

(** GetWorkItem(len), threads.h:1056-1076: is the call threaded? *)
Definition gets_work_item (len : Z) (noThreading lockHeld : bool) : bool :=
  if (len <? WORK_ITEM_BIG) || noThreading then false else negb lockHeld.
